(** Counting assignments up to their values for some options. *)
From Coq Require Import List ZArith Arith Bool Ascii String Lia.
From Verif Require Import Text TextProofs FeatureTreeModel SolverModel SolverSpec CountSpec.
Import ListNotations.

Notation vars := (list (text * sort)).
Lemma same_sym (vs : vars) a b : same_values vs a b -> same_values vs b a.
Proof. intros H n t I. specialize (H n t I). destruct t; congruence. Qed.
Lemma same_trans (vs : vars) a b c : same_values vs a b -> same_values vs b c -> same_values vs a c.
Proof. intros H K n t I. specialize (H n t I). specialize (K n t I). destruct t; congruence. Qed.
Lemma same_refl' (vs : vars) a : same_values vs a a.
Proof. intros n t _. destruct t; reflexivity. Qed.
Lemma same_app (vs ws : vars) a b : same_values (vs ++ ws) a b <-> same_values vs a b /\ same_values ws a b.
Proof.
  split; [intros H; split; intros n t I; apply H; apply in_or_app; auto|]. intros (H & K) n t I. apply in_app_or in I. destruct I as [I|I]; [exact (H n t I)|exact (K n t I)].
Qed.

(** Pairwise different. *)
Fixpoint apart (vs : vars) (l : list assignment) : Prop :=
  match l with [] => True | a :: r => (forall b, In b r -> ~ same_values vs a b) /\ apart vs r end.
Lemma apart_app vs l k : apart vs l -> apart vs k -> (forall a b, In a l -> In b k -> ~ same_values vs a b) -> apart vs (l ++ k).
Proof.
  induction l as [|a l IH]; intros A B C; [exact B|]. cbn. destruct A as (A1 & A2). split.
  - intros b I. apply in_app_or in I. destruct I as [I|I]; [exact (A1 b I)|exact (C a b (or_introl eq_refl) I)].
  - apply IH; [exact A2|exact B|]. intros x y X Y. exact (C x y (or_intror X) Y).
Qed.
Lemma apart_map vs ws f l : apart vs l -> (forall a b, In a l -> In b l -> same_values ws (f a) (f b) -> same_values vs a b) -> apart ws (map f l).
Proof.
  induction l as [|a l IH]; intros A H; [exact Logic.I|]. destruct A as (A1 & A2). split.
  - intros b I S. apply in_map_iff in I. destruct I as (x & <- & I). apply (A1 x I). exact (H a x (or_introl eq_refl) (or_intror I) S).
  - apply IH; [exact A2|]. intros x y X Y. exact (H x y (or_intror X) (or_intror Y)).
Qed.

(** [n] assignments obey [P], up to the values of the options [vs]. *)
Definition counted (vs : vars) (P : assignment -> Prop) (n : nat) : Prop :=
  exists l, List.length l = n /\ (forall a, In a l -> P a) /\ apart vs l /\ forall a, P a -> exists b, In b l /\ same_values vs a b.
Definition local (vs : vars) (P : assignment -> Prop) : Prop := forall a b, same_values vs a b -> P a -> P b.

Lemma counted_ext vs P Q n : (forall a, P a <-> Q a) -> counted vs P n -> counted vs Q n.
Proof.
  intros E (l & L & A & D & C). exists l. split; [exact L|]. split; [intros a I; apply E; exact (A a I)|]. split; [exact D|]. intros a q. apply C, E. exact q.
Qed.
Lemma counted_none vs P : (forall a, ~ P a) -> counted vs P 0.
Proof. intros N. exists []. split; [reflexivity|]. split; [intros a []|]. split; [exact Logic.I|]. intros a p. destruct (N a p). Qed.
Lemma counted_or vs P Q n k : local vs P -> (forall a, P a -> ~ Q a) -> counted vs P n -> counted vs Q k -> counted vs (fun a => P a \/ Q a) (n + k).
Proof.
  intros Lo X (l & L & A & D & C) (l' & L' & A' & D' & C'). exists (l ++ l'). split; [rewrite app_length; congruence|]. split; [|split].
  - intros a I. apply in_app_or in I. destruct I as [I|I]; [left; exact (A a I)|right; exact (A' a I)].
  - apply apart_app; [exact D|exact D'|]. intros a b I J S. apply (X b); [exact (Lo a b S (A a I))|exact (A' b J)].
  - intros a [p|q]; [destruct (C a p) as (b & I & S)|destruct (C' a q) as (b & I & S)]; exists b; (split; [apply in_or_app; auto|exact S]).
Qed.

(** The values of [a] for [vs] and those of [b] otherwise. *)
Definition has (vs : vars) (n : text) : bool := existsb (fun v => text_eqb (fst v) n) vs.
Definition mix (vs : vars) (a b : assignment) : assignment :=
  Assignment (fun n => if has vs n then a_bool a n else a_bool b n) (fun n => if has vs n then a_int a n else a_int b n) (a_div0 a).
Lemma has_in vs n : has vs n = true <-> In n (map fst vs).
Proof.
  unfold has. rewrite existsb_exists, in_map_iff. split; intros (x & A & B); exists x; [apply text_eqb_eq in B; auto|subst; split; [exact B|apply text_eqb_eq; reflexivity]].
Qed.
Lemma mix_left vs a b : same_values vs (mix vs a b) a.
Proof.
  intros n t I. assert (has vs n = true) as E by (apply has_in; apply in_map_iff; exists (n, t); auto). destruct t; cbn; rewrite E; reflexivity.
Qed.
Lemma mix_right vs ws a b : (forall n, In n (map fst vs) -> ~ In n (map fst ws)) -> same_values ws (mix vs a b) b.
Proof.
  intros X n t I. assert (has vs n = false) as E.
  { destruct (has vs n) eqn:H; [|reflexivity]. apply has_in in H. exfalso. apply (X n H). apply in_map_iff. exists (n, t). auto. }
  destruct t; cbn; rewrite E; reflexivity.
Qed.
Lemma counted_and vs ws P Q n k : (forall s, In s (map fst vs) -> ~ In s (map fst ws)) -> local vs P -> local ws Q ->
  counted vs P n -> counted ws Q k -> counted (vs ++ ws) (fun a => P a /\ Q a) (n * k).
Proof.
  intros X Lp Lq (l & L & A & D & C) (l' & L' & A' & D' & C').
  exists (flat_map (fun a => map (mix vs a) l') l). split; [|split; [|split]].
  - subst n k. clear. induction l as [|a l IH]; [reflexivity|]. cbn [flat_map List.length]. rewrite app_length, map_length, IH. reflexivity.
  - intros c I. apply in_flat_map in I. destruct I as (a & I & J). apply in_map_iff in J. destruct J as (b & <- & J). split.
    + apply (Lp a); [apply same_sym, mix_left|exact (A a I)].
    + apply (Lq b); [apply same_sym, mix_right; exact X|exact (A' b J)].
  - clear L A C. induction l as [|a l IH]; [exact Logic.I|]. cbn [flat_map]. destruct D as (D1 & D2). apply apart_app; [|apply IH; exact D2|].
    + apply (apart_map ws); [exact D'|]. intros b c _ _ S. apply same_app in S. destruct S as (_ & S).
      apply (same_trans _ _ (mix vs a b)); [apply same_sym, mix_right; exact X|]. apply (same_trans _ _ (mix vs a c)); [exact S|apply mix_right; exact X].
    + intros x y I J S. apply in_map_iff in I. destruct I as (b & <- & I). apply in_flat_map in J. destruct J as (a' & J & K). apply in_map_iff in K. destruct K as (c & <- & K).
      apply same_app in S. destruct S as (S & _). apply (D1 a' J). apply (same_trans _ _ (mix vs a b)); [apply same_sym, mix_left|]. apply (same_trans _ _ (mix vs a' c)); [exact S|apply mix_left].
  - intros a (p & q). destruct (C a p) as (b & I & S). destruct (C' a q) as (c & J & S'). exists (mix vs b c). split.
    + apply in_flat_map. exists b. split; [exact I|]. apply in_map. exact J.
    + apply same_app. split; [apply (same_trans _ _ b); [exact S|apply same_sym, mix_left]|apply (same_trans _ _ c); [exact S'|apply same_sym, mix_right; exact X]].
Qed.

(** Single options. *)
Lemma counted_empty (P : assignment -> Prop) : (forall a, P a) -> counted [] P 1.
Proof.
  intros H. exists [Assignment (fun _ => false) (fun _ => 0%Z) (fun _ => 0%Z)]. split; [reflexivity|]. split; [intros a _; apply H|]. split; [split; [intros b []|exact Logic.I]|].
  intros a _. eexists. split; [left; reflexivity|]. intros n t [].
Qed.
Lemma counted_bool n (b : bool) : counted [(n, SBool)] (fun a => a_bool a n = b) 1.
Proof.
  exists [Assignment (fun _ => b) (fun _ => 0%Z) (fun _ => 0%Z)]. split; [reflexivity|]. split; [intros a [<-|[]]; reflexivity|]. split; [split; [intros c []|exact Logic.I]|].
  intros a E. eexists. split; [left; reflexivity|]. intros s t [X|[]]. injection X as <- <-. exact E.
Qed.
Lemma counted_int n (P : Z -> Prop) zs : NoDup zs -> (forall z, In z zs <-> P z) -> counted [(n, SInt)] (fun a => P (a_int a n)) (List.length zs).
Proof.
  intros N E. exists (map (fun z => Assignment (fun _ => false) (fun _ => z) (fun _ => 0%Z)) zs). split; [apply map_length|]. split; [|split].
  - intros a I. apply in_map_iff in I. destruct I as (z & <- & I). apply E. exact I.
  - clear E. induction zs as [|z zs IH]; [exact Logic.I|]. inversion N as [|? ? N1 N2]; subst. split; [|exact (IH N2)].
    intros b I S. apply in_map_iff in I. destruct I as (y & <- & I). specialize (S n SInt (or_introl eq_refl)). cbn in S. subst y. exact (N1 I).
  - intros a p. eexists. split; [apply in_map; apply E; exact p|]. intros s t [X|[]]. injection X as <- <-. reflexivity.
Qed.
Lemma local_bool n (b : bool) : local [(n, SBool)] (fun a => a_bool a n = b).
Proof. intros a c S E. rewrite <- E. symmetry. exact (S n SBool (or_introl eq_refl)). Qed.
Lemma local_int n (P : Z -> Prop) : local [(n, SInt)] (fun a => P (a_int a n)).
Proof. intros a c S E. pose proof (S n SInt (or_introl eq_refl)) as X. cbn in X. rewrite <- X. exact E. Qed.
Lemma local_and vs P Q : local vs P -> local vs Q -> local vs (fun a => P a /\ Q a).
Proof. intros A B a b S (p & q). split; [exact (A a b S p)|exact (B a b S q)]. Qed.
Lemma local_more vs ws P : (forall v, In v vs -> In v ws) -> local vs P -> local ws P.
Proof. intros I A a b S. apply A. intros n t J. exact (S n t (I _ J)). Qed.
Lemma local_ext vs P Q : (forall a, P a <-> Q a) -> local vs P -> local vs Q.
Proof. intros E A a b S q. apply E. apply (A a b S). apply E. exact q. Qed.

(** Independent parts. *)
Section Parts.
Context {A : Type} (opts : A -> vars).
Lemma local_all (P : A -> assignment -> Prop) ts : (forall k, In k ts -> local (opts k) (P k)) -> local (flat_map opts ts) (fun a => forall k, In k ts -> P k a).
Proof.
  intros L a b S H k I. apply (L k I a b); [|exact (H k I)]. intros n t J. apply S. apply in_flat_map. exists k. auto.
Qed.
Lemma parts_apart k ts : NoDup (map fst (flat_map opts (k :: ts))) -> (forall s, In s (map fst (opts k)) -> ~ In s (map fst (flat_map opts ts))) /\ NoDup (map fst (flat_map opts ts)).
Proof.
  cbn [flat_map]. rewrite map_app. generalize (map fst (flat_map opts ts)) as y. generalize (map fst (opts k)) as x. induction x as [|s x IH]; intros y N; [split; [intros s []|exact N]|].
  cbn in N. inversion N as [|? ? N1 N2]; subst. destruct (IH y N2) as (I1 & I2). split; [|exact I2]. intros r [->|R]; [intros Y; apply N1; apply in_or_app; auto|exact (I1 r R)].
Qed.
Lemma counted_all (P : A -> assignment -> Prop) (f : A -> nat) ts : NoDup (map fst (flat_map opts ts)) -> (forall k, In k ts -> local (opts k) (P k)) ->
  (forall k, In k ts -> counted (opts k) (P k) (f k)) -> counted (flat_map opts ts) (fun a => forall k, In k ts -> P k a) (product (map f ts)).
Proof.
  induction ts as [|k ts IH]; intros N L C; [apply counted_empty; intros a k []|]. destruct (parts_apart k ts N) as (X & N'). cbn [map product fold_right flat_map].
  apply (counted_ext _ (fun a => P k a /\ forall j, In j ts -> P j a)).
  - intros a. split; [intros (p & q) j [<-|J]; auto|]. intros H. split; [apply H; left; reflexivity|]. intros j J. apply H. right. exact J.
  - apply counted_and; [exact X|apply L; left; reflexivity| |apply C; left; reflexivity|].
    + apply local_all. intros j J. apply L. right. exact J.
    + apply IH; [exact N'| |]; intros j J; [apply L|apply C]; right; exact J.
Qed.
(** Exactly one part obeys [Y] and the others [N], *)
Fixpoint exactly (Y N : A -> assignment -> Prop) (ts : list A) (a : assignment) : Prop :=
  match ts with [] => False | k :: r => (Y k a /\ forall j, In j r -> N j a) \/ (N k a /\ exactly Y N r a) end.
Lemma local_exactly Y N ts : (forall k, In k ts -> local (opts k) (Y k)) -> (forall k, In k ts -> local (opts k) (N k)) -> local (flat_map opts ts) (exactly Y N ts).
Proof.
  induction ts as [|k ts IH]; intros Ly Ln a b S; [intros []|]. cbn [flat_map] in S. apply same_app in S. destruct S as (S1 & S2). intros [(y & n)|(n & e)].
  - left. split; [exact (Ly k (or_introl eq_refl) a b S1 y)|]. apply (local_all N ts (fun j J => Ln j (or_intror J)) a b S2 n).
  - right. split; [exact (Ln k (or_introl eq_refl) a b S1 n)|]. exact (IH (fun j J => Ly j (or_intror J)) (fun j J => Ln j (or_intror J)) a b S2 e).
Qed.
Lemma counted_exactly Y N (y n : A -> nat) ts : NoDup (map fst (flat_map opts ts)) ->
  (forall k, In k ts -> local (opts k) (Y k) /\ local (opts k) (N k) /\ counted (opts k) (Y k) (y k) /\ counted (opts k) (N k) (n k) /\ forall a, Y k a -> ~ N k a) ->
  counted (flat_map opts ts) (exactly Y N ts) (one_chosen (map (fun k => (y k, n k)) ts)).
Proof.
  induction ts as [|k ts IH]; intros D H; [apply counted_none; intros a []|]. destruct (parts_apart k ts D) as (X & D'). destruct (H k (or_introl eq_refl)) as (Ly & Ln & Cy & Cn & E).
  assert (Hr : forall j, In j ts -> local (opts j) (Y j) /\ local (opts j) (N j) /\ counted (opts j) (Y j) (y j) /\ counted (opts j) (N j) (n j) /\ forall a, Y j a -> ~ N j a) by (intros j J; apply H; right; exact J).
  assert (L1 : local (flat_map opts ts) (fun a => forall j, In j ts -> N j a)) by (apply local_all; intros j J; apply (Hr j J)).
  cbn [map one_chosen flat_map exactly]. rewrite map_map. cbn [snd]. apply counted_or.
  - apply local_and; [apply (local_more (opts k)); [|exact Ly]|apply (local_more (flat_map opts ts)); [|exact L1]]; intros v V; apply in_or_app; auto.
  - intros a (p & _) (q & _). exact (E a p q).
  - apply counted_and; [exact X|exact Ly|exact L1|exact Cy|]. apply counted_all; [exact D'| |]; intros j J; apply (Hr j J).
  - apply counted_and; [exact X|exact Ln| |exact Cn|apply IH; [exact D'|exact Hr]]. apply local_exactly; intros j J; apply (Hr j J).
Qed.
(** or at least one. *)
Fixpoint some_part (Y N : A -> assignment -> Prop) (ts : list A) (a : assignment) : Prop :=
  match ts with [] => False | k :: r => (Y k a /\ forall j, In j r -> Y j a \/ N j a) \/ (N k a /\ some_part Y N r a) end.
Lemma local_some Y N ts : (forall k, In k ts -> local (opts k) (Y k)) -> (forall k, In k ts -> local (opts k) (N k)) -> local (flat_map opts ts) (some_part Y N ts).
Proof.
  induction ts as [|k ts IH]; intros Ly Ln a b S; [intros []|]. cbn [flat_map] in S. apply same_app in S. destruct S as (S1 & S2). intros [(y & n)|(n & e)].
  - left. split; [exact (Ly k (or_introl eq_refl) a b S1 y)|]. refine (local_all (fun j a => Y j a \/ N j a) ts _ a b S2 n). intros j J c d S [q|q]; [left; exact (Ly j (or_intror J) c d S q)|right; exact (Ln j (or_intror J) c d S q)].
  - right. split; [exact (Ln k (or_introl eq_refl) a b S1 n)|]. exact (IH (fun j J => Ly j (or_intror J)) (fun j J => Ln j (or_intror J)) a b S2 e).
Qed.
Lemma products_le (y n : A -> nat) ts : product (map n ts) <= product (map (fun k => y k + n k) ts).
Proof. induction ts as [|k ts IH]; [reflexivity|]. cbn [map product fold_right] in *. apply Nat.mul_le_mono; [lia|exact IH]. Qed.
Lemma counted_some Y N (y n : A -> nat) ts : NoDup (map fst (flat_map opts ts)) ->
  (forall k, In k ts -> local (opts k) (Y k) /\ local (opts k) (N k) /\ counted (opts k) (Y k) (y k) /\ counted (opts k) (N k) (n k) /\ forall a, Y k a -> ~ N k a) ->
  counted (flat_map opts ts) (some_part Y N ts) (product (map (fun k => y k + n k) ts) - product (map n ts)).
Proof.
  induction ts as [|k ts IH]; intros D H; [apply counted_none; intros a []|]. destruct (parts_apart k ts D) as (X & D'). destruct (H k (or_introl eq_refl)) as (Ly & Ln & Cy & Cn & E).
  assert (Hr : forall j, In j ts -> local (opts j) (Y j) /\ local (opts j) (N j) /\ counted (opts j) (Y j) (y j) /\ counted (opts j) (N j) (n j) /\ forall a, Y j a -> ~ N j a) by (intros j J; apply H; right; exact J).
  assert (Lo : forall j, In j ts -> local (opts j) (fun a => Y j a \/ N j a)).
  { intros j J a b S [q|q]; [left|right]; refine (_ a b S q); apply (Hr j J). }
  assert (L1 : local (flat_map opts ts) (fun a => forall j, In j ts -> Y j a \/ N j a)) by (apply (local_all (fun j a => Y j a \/ N j a)); exact Lo).
  pose proof (products_le y n ts) as Le.
  replace (product (map (fun k => y k + n k) (k :: ts)) - product (map n (k :: ts)))
    with (y k * product (map (fun k => y k + n k) ts) + n k * (product (map (fun k => y k + n k) ts) - product (map n ts))).
  2: { cbn [map product fold_right]. fold (product (map (fun k => y k + n k) ts)). fold (product (map n ts)). rewrite Nat.mul_sub_distr_l, Nat.mul_add_distr_r.
       pose proof (Nat.mul_le_mono_l _ _ (n k) Le). lia. }
  cbn [flat_map some_part]. apply counted_or.
  - apply local_and; [apply (local_more (opts k)); [|exact Ly]|apply (local_more (flat_map opts ts)); [|exact L1]]; intros v V; apply in_or_app; auto.
  - intros a (p & _) (q & _). exact (E a p q).
  - apply counted_and; [exact X|exact Ly|exact L1|exact Cy|]. apply (counted_all (fun j a => Y j a \/ N j a)); [exact D'|exact Lo|]. intros j J. destruct (Hr j J) as (h1 & h2 & h3 & h4 & h5). apply counted_or; assumption.
  - apply counted_and; [exact X|exact Ln| |exact Cn|apply IH; [exact D'|exact Hr]]. apply local_some; intros j J; apply (Hr j J).
Qed.
End Parts.
