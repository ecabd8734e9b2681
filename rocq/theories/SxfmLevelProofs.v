(** Levels of lines: occurrences of the indentation before the first colon. *)
From Coq Require Import List Arith Bool Ascii String Lia.
From Verif Require Import Text TextProofs SxfmModel SxfmLineProofs SxfmLevelSpec.
Import ListNotations.

Lemma count_occurs p t n : p <> [] -> occurs_times p t n -> count_text p 0 t = n.
Proof.
  intros Ne. induction 1 as [|t n _ IH|c t n N _ IH]; [reflexivity| |].
  - destruct p as [|c p]; [contradiction|]. cbn [app count_text]. change (c :: p ++ t) with ((c :: p) ++ t). rewrite starts_with_app, count_skip, IH. reflexivity.
  - destruct p as [|d p]; [contradiction|]. cbn [count_text]. destruct (starts_with (d :: p) (c :: t)) eqn:E; [|exact IH].
    apply starts_with_spec in E. destruct E as [r E]. destruct (N r E).
Qed.
Lemma occurs_some p t : p <> [] -> exists n, occurs_times p t n.
Proof.
  intros Ne. remember (List.length t) as k eqn:K. assert (List.length t <= k) as L by lia. clear K. revert t L. induction k as [|k IH]; intros t L.
  - destruct t; [|cbn in L; lia]. exists 0. constructor.
  - destruct t as [|c t]; [exists 0; constructor|]. destruct (starts_with p (c :: t)) eqn:E.
    + apply starts_with_spec in E. destruct E as [r E]. destruct (IH r) as [n O].
      { destruct p; [contradiction|]. apply (f_equal (@List.length _)) in E. rewrite app_length in E. cbn in *. lia. }
      exists (S n). rewrite E. constructor. exact O.
    + destruct (IH t) as [n O]; [cbn in L; lia|]. exists n. constructor; [|exact O]. intros r X. rewrite X, starts_with_app in E. discriminate.
Qed.
Lemma level_occurs ind b r n : ind <> [] -> ~ In ":"%char b -> (level_of ind (b ++ ":"%char :: r) = n <-> occurs_times ind b n).
Proof.
  intros Ne Nc. unfold level_of. rewrite until_app.
  - split; [intros <-|apply count_occurs; exact Ne]. destruct (occurs_some ind b Ne) as [m O]. rewrite (count_occurs _ _ _ Ne O). exact O.
  - exact Nc.
Qed.
