(** Proofs about trimming and numbers in texts. *)
From Coq Require Import List ZArith NArith Arith Bool Ascii String Lia.
From Verif Require Import Text TextProofs SxfmModel XmlModel XmlTextSpec.
Import ListNotations.
Local Open Scope string_scope.
Local Open Scope list_scope.
Local Open Scope nat_scope.

Lemma is_space_iff c : is_space c = true <-> In (code c) [32; 9; 10; 11; 12; 13].
Proof.
  unfold is_space. rewrite orb_true_iff, andb_true_iff, Nat.eqb_eq, !Nat.leb_le. cbn [In]. lia.
Qed.
Lemma is_digit_iff c : is_digit c = true <-> 48 <= code c <= 57.
Proof. unfold is_digit. rewrite andb_true_iff, !Nat.leb_le. lia. Qed.
Lemma spaces_iff t : forallb is_space t = true <-> spaces t.
Proof. rewrite forallb_forall. unfold spaces. rewrite Forall_forall. split; intros H c I; apply is_space_iff; auto. Qed.
Lemma not_space_iff c : is_space c = false <-> no_space c.
Proof. unfold no_space. rewrite <- is_space_iff. destruct (is_space c); split; intros H; congruence. Qed.
Lemma not_digit_iff c : is_digit c = false <-> ~ 48 <= code c <= 57.
Proof. rewrite <- is_digit_iff. destruct (is_digit c); split; intros H; congruence. Qed.

Lemma drop_spaces a u : spaces a -> (forall c r, u = c :: r -> no_space c) -> drop_while is_space (a ++ u) = u.
Proof.
  intros A N. induction A as [|c a C A IH]; cbn [app drop_while].
  - destruct u as [|c u]; [reflexivity|]. cbn [drop_while]. rewrite (proj2 (not_space_iff c) (N c u eq_refl)). reflexivity.
  - rewrite (proj2 (is_space_iff c) C). exact IH.
Qed.
Lemma trim_iff t u : trim t = u <-> trimmed_to t u.
Proof.
  split.
  - intros <-. unfold trim. set (v := drop_while is_space t). set (w := drop_while is_space (rev v)).
    exists (take_while is_space t), (rev (take_while is_space (rev v))). pose proof (take_drop_while is_space (rev v)) as E. fold w in E.
    assert (Ev : v = rev w ++ rev (take_while is_space (rev v))) by (rewrite <- rev_app_distr, E, rev_involutive; reflexivity).
    split; [rewrite <- Ev; symmetry; apply take_drop_while|]. split; [apply spaces_iff, take_while_all|].
    split; [unfold spaces; apply Forall_rev; apply spaces_iff; apply take_while_all|]. split.
    + intros c r Er. apply not_space_iff. rewrite Er in Ev. pose proof (drop_while_head is_space t) as D. fold v in D. rewrite Ev in D. exact D.
    + intros c r Er. apply not_space_iff. assert (w = c :: rev r) as Ew by (rewrite <- (rev_involutive w), Er, rev_app_distr; reflexivity).
      pose proof (drop_while_head is_space (rev v)) as D. fold w in D. rewrite Ew in D. exact D.
  - intros (a & b & -> & A & B & H1 & H2). unfold trim. destruct u as [|c u].
    + cbn [app]. rewrite <- (app_nil_r (a ++ b)). rewrite drop_spaces; [reflexivity| |discriminate]. unfold spaces. apply Forall_app. auto.
    + rewrite drop_spaces; [|exact A|intros d r E; exact (H1 _ _ (f_equal (fun l => hd c l :: u) E))].
      * rewrite rev_app_distr, drop_spaces; [apply rev_involutive|apply Forall_rev; exact B|]. intros d r E. apply (H2 d (rev r)).
        rewrite <- (rev_involutive (c :: u)), E. reflexivity.
Qed.

Lemma take_digits t : exists d r, t = d ++ r /\ all_digits d /\ starts_not (fun c => 48 <= code c <= 57) r.
Proof.
  exists (take_while is_digit t), (drop_while is_digit t). split; [symmetry; apply take_drop_while|]. split.
  - apply Forall_forall. intros c I. apply is_digit_iff. pose proof (take_while_all is_digit t) as H. rewrite forallb_forall in H. auto.
  - intros c r E. apply not_digit_iff. pose proof (drop_while_head is_digit t) as H. rewrite E in H. exact H.
Qed.

(** ** Numbers of a text *)
Lemma digits_through d : all_digits d -> forall b cur r, cur <> [] -> numerals b cur (d ++ r) = numerals (match d with [] => b | _ => false end) (cur ++ d) r.
Proof.
  intros D. induction D as [|c d C D IH]; intros b cur r N; cbn [app]; [rewrite app_nil_r; reflexivity|]. cbn [numerals]. rewrite (proj2 (is_digit_iff c) C).
  destruct cur as [|x cur]; [congruence|]. rewrite IH by discriminate. rewrite <- app_assoc. cbn [app]. destruct d; reflexivity.
Qed.
Lemma gap_through g : no_digits g -> forall b r, numerals b [] (g ++ r) = numerals (match rev g with [] => b | c :: _ => Ascii.eqb c "-" end) [] r.
Proof.
  intros G. induction G as [|c g C G IH]; intros b r; [reflexivity|]. cbn [app numerals]. rewrite (proj2 (not_digit_iff c) C). cbn [emit app]. rewrite IH. cbn [rev].
  destruct (rev g); reflexivity.
Qed.
Lemma numbers_of t l : runs t l -> forall b, numerals b [] t =
  match l, t with d :: k, c :: _ => if is_digit c && b then ("-"%char :: d) :: k else l | _, _ => l end.
Proof.
  intros H. induction H as [g G|g d r l G N D S H IH]; intros b.
  - rewrite <- (app_nil_r g) at 1. rewrite gap_through by exact G. reflexivity.
  - rewrite gap_through by exact G. destruct d as [|x d]; [congruence|]. inversion D as [|? ? X D']; subst.
    set (b' := match rev g with [] => b | c :: _ => Ascii.eqb c "-" end). cbn [app numerals]. rewrite (proj2 (is_digit_iff x) X).
    assert (E : numerals false (if b' then ["-"%char; x] else [x]) (d ++ r) = (if b' then "-"%char :: x :: d else x :: d) :: l).
    { rewrite digits_through; [|exact D'|destruct b'; discriminate]. replace (match d with [] => false | _ :: _ => false end) with false by (destruct d; reflexivity).
      assert (W : exists w, w <> [] /\ (if b' return text then ["-"%char; x] else [x]) ++ d = w /\ (if b' then "-"%char :: x :: d else x :: d) = w).
      { destruct b'; eexists; (split; [|split; reflexivity]); discriminate. }
      destruct W as (w & W & E1 & E2). rewrite E1, E2.
      destruct r as [|y r].
      - cbn [numerals]. specialize (IH false). cbn [numerals emit] in IH. destruct l; [|discriminate]. unfold emit. destruct w; [congruence|reflexivity].
      - assert (is_digit y = false) as Y by (apply not_digit_iff; exact (S y r eq_refl)). specialize (IH false). cbn [numerals] in IH |- *. rewrite Y in IH |- *. cbn [emit app andb] in IH.
        assert (Em : emit w = [w]) by (unfold emit; destruct w; [congruence|reflexivity]). rewrite Em. cbn [app]. f_equal. rewrite IH. destruct l; reflexivity. }
    rewrite E. destruct (rev g) as [|c g'] eqn:Er.
    + assert (g = []) as -> by (destruct g as [|z g]; [reflexivity|cbn [rev] in Er; destruct (rev g); discriminate]). cbn [app]. rewrite (proj2 (is_digit_iff x) X). subst b'.
      cbn [andb]. destruct b; reflexivity.
    + assert (exists z g2, g = z :: g2) as (z & g2 & ->) by (destruct g; [discriminate|eauto]). inversion G as [|? ? Z G']; subst. cbn [app]. rewrite (proj2 (not_digit_iff z) Z). cbn [andb].
      subst b'. destruct (Ascii.eqb c "-") eqn:Ec; [|reflexivity]. apply Ascii.eqb_eq in Ec. subst c. reflexivity.
Qed.
Lemma some_runs t : exists l, runs t l.
Proof.
  assert (forall n t, List.length t <= n -> exists l, runs t l) as H; [|exact (H _ t (le_n _))].
  induction n as [|n IH]; intros u L.
  - destruct u; [|cbn in L; lia]. exists []. apply runs_none. constructor.
  - assert (exists g v, u = g ++ v /\ no_digits g /\ starts_not (fun c => ~ 48 <= code c <= 57) v) as (g & v & -> & G & V).
    { exists (take_while (fun c => negb (is_digit c)) u), (drop_while (fun c => negb (is_digit c)) u). split; [symmetry; apply take_drop_while|]. split.
      - apply Forall_forall. intros c I. apply not_digit_iff. pose proof (take_while_all (fun c => negb (is_digit c)) u) as H. rewrite forallb_forall in H. apply H in I. destruct (is_digit c); [discriminate|reflexivity].
      - intros c r E. pose proof (drop_while_head (fun c => negb (is_digit c)) u) as H. rewrite E in H. cbn in H. rewrite <- not_digit_iff. destruct (is_digit c); discriminate. }
    destruct v as [|c v]; [exists []; rewrite app_nil_r; apply runs_none; exact G|].
    destruct (take_digits (c :: v)) as (d & r & E & D & S). assert (d <> []).
    { intros ->. cbn [app] in E. subst r. exact (V c v eq_refl (S c v eq_refl)). }
    rewrite E in *. destruct (IH r) as (l & Hl).
    + rewrite !app_length in L. destruct d; [congruence|]. cbn in L. lia.
    + eexists. apply runs_more; eauto.
Qed.
Lemma numerals_iff t l : numerals false [] t = l <-> runs t l.
Proof.
  assert (H : forall k, runs t k -> numerals false [] t = k).
  { intros k Hk. rewrite (numbers_of t k Hk false). destruct k, t; try reflexivity. rewrite andb_false_r. reflexivity. }
  split; [|apply H]. intros <-. destruct (some_runs t) as (k & Hk). rewrite (H k Hk). exact Hk.
Qed.

(** ** The number at the beginning *)
Lemma digits_value_worth d r : all_digits d -> starts_not (fun c => 48 <= code c <= 57) r -> forall a,
  digits_value a (d ++ r) = fold_left (fun a c => 10 * a + Z.of_nat (code c - 48))%Z d a.
Proof.
  intros D S. induction D as [|c d C D IH]; intros a; cbn [app fold_left digits_value].
  - destruct r as [|c r]; [reflexivity|]. cbn [digits_value]. rewrite (proj2 (not_digit_iff c) (S c r eq_refl)). reflexivity.
  - rewrite (proj2 (is_digit_iff c) C). apply IH.
Qed.
Lemma atoi_iff t z : atoi t = Some z <-> leading_number t z /\ (- 2 ^ 31 <= z < 2 ^ 31)%Z.
Proof.
  assert (H : forall y, leading_number t y -> match drop_while is_space t with
           | c :: r => if Ascii.eqb c "-" then (- digits_value 0 r)%Z else if Ascii.eqb c "+" then digits_value 0 r else digits_value 0 (c :: r)
           | [] => 0%Z end = y).
  { intros y (w & s & d & r & -> & W & D & S & K). assert (E : drop_while is_space (w ++ s ++ d ++ r) = s ++ d ++ r).
    { apply drop_spaces; [exact W|]. intros c q Eq. destruct K as [(-> & _)|[(-> & _)|(-> & _ & N)]].
      - injection Eq as <- _. apply not_space_iff. reflexivity.
      - injection Eq as <- _. apply not_space_iff. reflexivity.
      - intros I. apply (N c q Eq). left. exact I. }
    rewrite E. destruct K as [(-> & ->)|[(-> & ->)|(-> & -> & N)]].
    - cbn [app]. change (Ascii.eqb "-" "-") with true. cbv iota. rewrite digits_value_worth by assumption. reflexivity.
    - cbn [app]. change (Ascii.eqb "+" "-") with false. change (Ascii.eqb "+" "+") with true. cbv iota. rewrite digits_value_worth by assumption. reflexivity.
    - cbn [app]. unfold digits_worth. rewrite <- (digits_value_worth d r D S 0). destruct (d ++ r) as [|c q]; [reflexivity|].
      destruct (Ascii.eqb c "-") eqn:E1; [apply Ascii.eqb_eq in E1; destruct (N c q eq_refl); auto|].
      destruct (Ascii.eqb c "+") eqn:E2; [apply Ascii.eqb_eq in E2; destruct (N c q eq_refl); auto|]. reflexivity. }
  assert (X : exists y, leading_number t y).
  { assert (exists w v, t = w ++ v /\ spaces w /\ starts_not (fun c => In (code c) [32; 9; 10; 11; 12; 13]) v) as (w & v & -> & W & V).
    { exists (take_while is_space t), (drop_while is_space t). split; [symmetry; apply take_drop_while|]. split; [apply spaces_iff, take_while_all|].
      intros c r E. apply not_space_iff. pose proof (drop_while_head is_space t) as X. rewrite E in X. exact X. }
    destruct v as [|c v].
    - exists 0%Z, w, [], [], []. split; [reflexivity|]. split; [exact W|]. split; [constructor|]. split; [intros ? ? ?; discriminate|]. right. right. split; [reflexivity|]. split; [reflexivity|]. intros ? ? ?. discriminate.
    - destruct (ascii_dec c "-") as [->|N1]; [|destruct (ascii_dec c "+") as [->|N2]].
      + destruct (take_digits v) as (d & r & -> & D & S). eexists _, w, ["-"%char], d, r. repeat (split; [try reflexivity; assumption|]). left. split; reflexivity.
      + destruct (take_digits v) as (d & r & -> & D & S). eexists _, w, ["+"%char], d, r. repeat (split; [try reflexivity; assumption|]). right. left. split; reflexivity.
      + destruct (take_digits (c :: v)) as (d & r & E & D & S). rewrite E in *. eexists _, w, [], d, r. repeat (split; [try reflexivity; assumption|]). right. right. split; [reflexivity|]. split; [reflexivity|].
        intros x q Eq. rewrite Eq in E. injection E as <- <-. intros [I|[K|K]]; [exact (V _ _ Eq I)|congruence|congruence]. }
  destruct X as (y & Hy). pose proof (H y Hy) as E. unfold atoi. rewrite E.
  destruct ((- 2 ^ 31 <=? y)%Z && (y <? 2 ^ 31)%Z) eqn:B.
  - apply andb_true_iff in B. rewrite Z.leb_le, Z.ltb_lt in B. split; [intros [= <-]; auto|]. intros (L & _). rewrite <- (H z L), E. reflexivity.
  - split; [discriminate|]. intros (L & Q). assert (z = y) as -> by (rewrite <- (H z L); exact E). exfalso.
    rewrite <- not_true_iff_false in B. apply B. apply andb_true_iff. rewrite Z.leb_le, Z.ltb_lt. exact Q.
Qed.
Lemma unsigned_is z : Z.of_N (to_unsigned z) = (z mod 2 ^ 32)%Z.
Proof. unfold to_unsigned. rewrite Z2N.id; [reflexivity|]. apply Z.mod_pos_bound. reflexivity. Qed.

Lemma text_example :
  trim (T "  a b ") = T "a b" /\ map U (numerals false [] (T "1; -2,30--4 - 5")) = ["1"; "-2"; "30"; "-4"; "5"] /\
  atoi (T " -12x") = Some (-12)%Z /\ atoi (T "x") = Some 0%Z /\ atoi (T "3000000000") = None /\ to_unsigned (-1) = 4294967295%N.
Proof. repeat split; vm_compute; reflexivity. Qed.
Lemma texts_read t : trimmed_to t (trim t) /\ runs t (numerals false [] t) /\ (forall z, atoi t = Some z <-> leading_number t z /\ (- 2 ^ 31 <= z < 2 ^ 31)%Z).
Proof. split; [apply trim_iff; reflexivity|]. split; [apply numerals_iff; reflexivity|]. intros z. apply atoi_iff. Qed.
Lemma readings_unique t : (forall u, trimmed_to t u -> u = trim t) /\ (forall l, runs t l -> l = numerals false [] t).
Proof. split; [intros u H; symmetry; apply trim_iff; exact H|intros l H; symmetry; apply numerals_iff; exact H]. Qed.
