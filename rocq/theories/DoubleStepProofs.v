(** Step functions on doubles. *)
From Coq Require Import List ZArith NArith Arith Bool Ascii String SpecFloat Sorted Lia.
From Verif Require Import Text NumSpec StepFunctionModel StepFunctionSpec StepFunctionProofs SourceRangeModel FeatureTreeModel SxfmModel XmlModel SolverSpec DoubleModel DoubleSpec DoubleProofs.
Import ListNotations.
Local Open Scope Z_scope.

(** A power function that is exact where the result is. *)
Definition pow_exact (pow : double -> double -> double) : Prop :=
  forall a b, within a -> within b -> 0 <= b -> within (a ^ b) -> to_int (pow (of_int a) (of_int b)) = Some (a ^ b).

Lemma digit_not_dot c : is_digit c = true -> Ascii.eqb c "." = false.
Proof. intros D. apply Ascii.eqb_neq. intros ->. discriminate D. Qed.
Lemma before_digits a r : forallb is_digit a = true -> before_dot (a ++ "."%char :: r) = a /\ behind_dot (a ++ "."%char :: r) = r /\ before_dot a = a /\ behind_dot a = [].
Proof.
  induction a as [|c a IH]; cbn [forallb app before_dot behind_dot]; [intros _; repeat split|]. intros H. apply andb_true_iff in H. destruct H as [D H].
  rewrite (digit_not_dot c D). destruct (IH H) as (-> & -> & -> & ->). repeat split.
Qed.
Lemma value_exact t z : integral t z -> within z -> double_value t = exact_double z.
Proof.
  intros (a & b & W & _ & D & V) S. rewrite forallb_app in D. apply andb_true_iff in D. destruct D as [Da Db].
  assert (E : before_dot t = a /\ behind_dot t = b).
  { destruct (before_digits a b Da) as (? & ? & ? & ?). destruct W as [[-> ->]| ->]; auto. }
  destruct E as [E1 E2]. unfold double_value. rewrite E1, E2. apply decimal_exact; [exact S|].
  destruct (Z.leb_spec 0 (- Z.of_nat (List.length b))) as [L|L].
  - destruct b; [|cbn [List.length] in L; lia]. cbn [List.length Z.of_nat Z.opp Z.pow] in *. rewrite Z.mul_1_r in *. exact V.
  - rewrite Z.opp_involutive. exact V.
Qed.
Lemma integral_decimal t z : integral t z -> decimal_number t.
Proof.
  intros (a & b & W & N & D & _). destruct W as [[-> ->]| ->].
  - left. rewrite app_nil_r in *. auto.
  - right. exists a, b. auto.
Qed.

(** ** Single steps *)
Lemma operation_exact pow o a b : o = SPow -> pow_exact pow /\ 0 <= b -> within a -> within b -> within (operation o a b) ->
  to_int (apply_op (double_arith pow) o (exact_double a) (exact_double b)) = Some (operation o a b).
Proof.
  intros -> [P B0] A B C. cbn. rewrite <- !of_int_exact by assumption. apply P; assumption.
Qed.
Lemma operation_same pow o a b : (o = SPow -> pow_exact pow /\ 0 <= b) -> within a -> within b -> within (operation o a b) ->
  to_int (apply_op (double_arith pow) o (exact_double a) (exact_double b)) = Some (operation o a b).
Proof.
  intros P A B C. destruct o; [| |apply operation_exact; auto].
  - cbn. rewrite add_exact by assumption. apply to_int_of; [apply truncated_exact; exact C|exact C].
  - cbn. apply to_int_of; [apply mul_exact; assumption|exact C].
Qed.
Theorem steps_name_first pow t x o y z : written t x o y -> name_text x -> integral y z -> within z -> (o = SPow -> pow_exact pow /\ 0 <= z) ->
  exists g, read_step (double_arith pow) double_value t = SxDone (Some g) /\ forall v, within v -> within (operation o v z) -> g v = Some (operation o v z).
Proof.
  intros W N I Z P. unfold read_step.
  assert (D : parse_step double_value t = SOk (StepFunction (OName x) o (ONum (double_value y)))).
  { apply parse_step_spec. constructor; [exact W|exact N|exact (integral_decimal _ _ I)]. }
  rewrite D. eexists. split; [reflexivity|]. intros v V R. unfold next_int, next_double. cbn [sf_rhs sf_op]. rewrite (value_exact y z I Z).
  change (a_of_int (double_arith pow) v) with (of_int v). rewrite of_int_exact by exact V. apply operation_same; assumption.
Qed.
Theorem steps_number_first pow t x o y z : written t x o y -> integral x z -> name_text y -> within z -> (o = SPow -> pow_exact pow) ->
  exists g, read_step (double_arith pow) double_value t = SxDone (Some g) /\
    forall v, within v -> (o = SPow -> 0 <= v) -> within (operation o z v) -> g v = Some (operation o z v).
Proof.
  intros W I N Z P. unfold read_step.
  assert (D : parse_step double_value t = SOk (StepFunction (ONum (double_value x)) o (OName y))).
  { apply parse_step_spec. constructor; [exact W|exact (integral_decimal _ _ I)|exact N]. }
  rewrite D. eexists. split; [reflexivity|]. intros v V Pv R. unfold next_int, next_double. cbn [sf_rhs sf_lhs sf_op]. rewrite (value_exact x z I Z).
  change (a_of_int (double_arith pow) v) with (of_int v). rewrite of_int_exact by exact V. apply operation_same; auto.
Qed.

(** ** Ranges *)
Lemma iter_first {A} (f : A -> A) j x : Nat.iter (S j) f x = Nat.iter j f (f x).
Proof. induction j as [|j IH]; [reflexivity|]. change (f (Nat.iter (S j) f x) = f (Nat.iter j f (f x))). rewrite IH. reflexivity. Qed.
Lemma expand_increasing g F lo hi : (forall v, lo <= v -> v < F v) -> (forall v, lo <= v <= hi -> g v = Some (F v)) ->
  exists n out, (forall n', (n <= n')%nat -> expand n' (Some g) lo hi = Expanded out) /\ lists_down (fun v => exists j, v = Nat.iter j F lo /\ v <= hi) out.
Proof.
  intros Inc G.
  assert (Up : forall j c, lo <= c -> c <= Nat.iter j F c /\ lo <= Nat.iter j F c).
  { induction j as [|j IH]; intros c L; [change (c <= c /\ lo <= c); lia|]. change (c <= F (Nat.iter j F c) /\ lo <= F (Nat.iter j F c)).
    destruct (IH c L) as [A B]. specialize (Inc _ B). lia. }
  assert (K : forall k c vals, lo <= c -> (Z.to_nat (hi + 1 - c) <= k)%nat -> exists out, (forall n, (k <= n)%nat -> expand_loop n (Some g) c hi vals = Expanded (out ++ vals)) /\
    lists_down (fun v => exists j, v = Nat.iter j F c /\ v <= hi) out).
  { induction k as [|k IH]; intros c vals L M.
    - exists []. split.
      + intros n _. replace (expand_loop n (Some g) c hi vals) with (if c <=? hi then expand_loop n (Some g) c hi vals else Expanded vals) by (destruct n; cbn; destruct (c <=? hi); reflexivity).
        destruct (Z.leb_spec c hi); [lia|reflexivity].
      + split; [|constructor]. intros v. split; [intros []|]. intros (j & -> & H). destruct (Up j c L). lia.
    - destruct (Z.leb_spec c hi) as [Lc|Lc].
      + assert (Lf : c < F c) by (apply Inc; exact L). destruct (IH (F c) (c :: vals)) as (out & E & B & So); [lia|lia|].
        exists (out ++ [c]). split; [|split].
        * intros [|n] Ln; [lia|]. cbn [expand_loop]. replace (c <=? hi) with true by (symmetry; apply Z.leb_le; exact Lc). rewrite (G c) by lia.
          rewrite E by lia. rewrite <- app_assoc. reflexivity.
        * intros v. rewrite in_app_iff, B. cbn [In]. split.
          -- intros [(j & -> & H)|[<-|[]]]; [exists (S j); split; [symmetry; apply iter_first|exact H]|exists 0%nat; split; [reflexivity|exact Lc]].
          -- intros (j & -> & H). destruct j as [|j]; [right; left; reflexivity|]. left. exists j. split; [apply iter_first|exact H].
        * assert (Sc : forall l, (forall v, In v l -> v > c) -> StronglySorted Z.gt l -> StronglySorted Z.gt (l ++ [c])).
          { induction l as [|a l IHl]; intros A Sl; cbn [app]; [repeat constructor|]. inversion Sl as [|? ? Sl' Fl]. subst. constructor.
            - apply IHl; [intros v I; apply A; right; exact I|exact Sl'].
            - apply Forall_app. split; [exact Fl|]. constructor; [|constructor]. apply A. left. reflexivity. }
          apply Sc; [|exact So]. intros v I. apply B in I. destruct I as (j & -> & _). destruct (Up j (F c)); lia.
      + exists []. split.
        * intros n _. destruct n; cbn; destruct (Z.leb_spec c hi); (lia || reflexivity).
        * split; [|constructor]. intros v. split; [intros []|]. intros (j & -> & H). destruct (Up j c L). lia. }
  destruct (K (Z.to_nat (hi + 1 - lo)) lo [] ltac:(lia) ltac:(lia)) as (out & E & D). exists (Z.to_nat (hi + 1 - lo)), out.
  split; [|exact D]. intros n' L. unfold expand. rewrite E by exact L. rewrite app_nil_r. reflexivity.
Qed.
(** The same values are allowed for a feature, and the range is left. *)
Lemma allowed_increasing g F lo hi : (forall v, lo <= v -> v < F v) -> (forall v, lo <= v <= hi -> g v = Some (F v)) ->
  (forall v, allowed_value (VRange lo hi) (Some g) v <-> exists j, v = Nat.iter j F lo /\ v <= hi) /\ leaves_range (VRange lo hi) (Some g).
Proof.
  intros Inc G.
  assert (Up : forall j, lo <= Nat.iter j F lo).
  { induction j as [|j IH]; [apply Z.le_refl|]. change (lo <= F (Nat.iter j F lo)). specialize (Inc _ IH). lia. }
  assert (Fwd : forall vs v, iterates g lo vs v -> Forall (fun x => x <= hi) vs -> exists j, v = Nat.iter j F lo).
  { induction 1 as [|vs v w I IH St]; intros Fa; [exists 0%nat; reflexivity|]. apply Forall_app in Fa. destruct Fa as [Fa Fv]. inversion Fv as [|? ? Lv _]. subst.
    destruct (IH Fa) as (j & Ej). exists (S j). change (w = F (Nat.iter j F lo)). rewrite <- Ej. rewrite (G v) in St by (subst v; split; [apply Up|exact Lv]). congruence. }
  assert (Bwd : forall j, Nat.iter j F lo <= hi -> exists vs, iterates g lo vs (Nat.iter j F lo) /\ Forall (fun x => x <= hi) vs).
  { induction j as [|j IH]; intros L; [exists []; split; [apply It_start|constructor]|].
    change (F (Nat.iter j F lo) <= hi) in L. pose proof (Inc _ (Up j)) as Lt. destruct IH as (vs & I & Fa); [lia|].
    exists (vs ++ [Nat.iter j F lo]). split; [eapply It_next; [exact I|]; apply G; split; [apply Up|lia]|]. apply Forall_app. split; [exact Fa|]. constructor; [lia|constructor]. }
  split.
  - intros v. cbn [allowed_value]. split.
    + intros (g' & vs & E & I & Fa). injection E as <-. apply Forall_app in Fa. destruct Fa as [Fa Fv]. inversion Fv. subst. destruct (Fwd _ _ I Fa) as (j & ->). eauto.
    + intros (j & -> & L). destruct (Bwd j L) as (vs & I & Fa). exists g, vs. split; [reflexivity|]. split; [exact I|]. apply Forall_app. split; [exact Fa|]. constructor; [exact L|constructor].
  - cbn [leaves_range]. destruct (Z_lt_le_dec hi lo) as [?|Le]; [left; assumption|]. right.
    assert (K : forall k c vs, iterates g lo vs c -> Forall (fun x => x <= hi) vs -> lo <= c -> (Z.to_nat (hi + 1 - c) <= k)%nat ->
      exists g' vs' z, Some g = Some g' /\ iterates g' lo vs' z /\ Forall (fun x => x <= hi) vs' /\ hi < z).
    { induction k as [|k IH]; intros c vs I Fa Lc M; [exists g, vs, c; repeat split; [exact I|exact Fa|lia]|].
      destruct (Z_lt_le_dec hi c) as [?|Lh]; [exists g, vs, c; repeat split; assumption|].
      pose proof (Inc c Lc). apply (IH (F c) (vs ++ [c])); [eapply It_next; [exact I|apply G; lia]| |lia|lia]. apply Forall_app. split; [exact Fa|]. constructor; [exact Lh|constructor]. }
    apply (K (Z.to_nat (hi + 1 - lo)) lo [] (It_start g lo)); [constructor|lia|reflexivity].
Qed.
Lemma iter_add z j : forall c, Nat.iter j (fun v => v + z) c = c + Z.of_nat j * z.
Proof. induction j as [|j IH]; intros c; [cbn [Nat.iter nat_rect]; lia|]. change (Nat.iter j (fun v => v + z) c + z = c + Z.of_nat (S j) * z). rewrite IH. lia. Qed.
Lemma iter_mul z j : forall c, Nat.iter j (fun v => v * z) c = c * z ^ Z.of_nat j.
Proof.
  induction j as [|j IH]; intros c; [cbn [Nat.iter nat_rect Z.of_nat Z.pow]; lia|]. change (Nat.iter j (fun v => v * z) c * z = c * z ^ Z.of_nat (S j)).
  rewrite IH, Nat2Z.inj_succ, Z.pow_succ_r by lia. ring.
Qed.
Lemma lists_down_ext P Q out : (forall v, P v <-> Q v) -> lists_down P out -> lists_down Q out.
Proof. intros E [A B]. split; [|exact B]. intros v. rewrite A. apply E. Qed.
Theorem arithmetic_range pow t x y z lo hi : written t x SAdd y -> name_text x -> integral y z -> 0 < z -> within z -> within lo -> within (hi + z) ->
  exists g n out, read_step (double_arith pow) double_value t = SxDone (Some g) /\ (forall n', (n <= n')%nat -> expand n' (Some g) lo hi = Expanded out) /\
    lists_down (fun v => exists j, 0 <= j /\ v = lo + j * z /\ v <= hi) out /\
    (forall v, allowed_value (VRange lo hi) (Some g) v <-> exists j, 0 <= j /\ v = lo + j * z /\ v <= hi) /\ leaves_range (VRange lo hi) (Some g).
Proof.
  intros W N I P Z L H. destruct (steps_name_first pow t x SAdd y z W N I Z ltac:(discriminate)) as (g & R & G).
  assert (Inc : forall v, lo <= v -> v < v + z) by (intros v B; lia).
  assert (Nx : forall v, lo <= v <= hi -> g v = Some (v + z)) by (intros v B; apply G; unfold within in *; cbn [operation]; lia).
  assert (Q : forall v, (exists j, v = Nat.iter j (fun v => v + z) lo /\ v <= hi) <-> exists j, 0 <= j /\ v = lo + j * z /\ v <= hi).
  { intros v. split.
    - intros (j & -> & Hj). rewrite iter_add in *. exists (Z.of_nat j). split; [lia|]. split; [reflexivity|exact Hj].
    - intros (j & Hj & -> & Hh). exists (Z.to_nat j). rewrite iter_add, Z2Nat.id by lia. split; [reflexivity|exact Hh]. }
  destruct (expand_increasing g (fun v => v + z) lo hi Inc Nx) as (n & out & E & D). destruct (allowed_increasing g (fun v => v + z) lo hi Inc Nx) as (A & V).
  exists g, n, out. split; [exact R|]. split; [exact E|]. split; [exact (lists_down_ext _ _ _ Q D)|]. split; [|exact V]. intros v. rewrite A. apply Q.
Qed.
Theorem geometric_range pow t x y z lo hi : written t x SMul y -> name_text x -> integral y z -> 1 < z -> within z -> 0 < lo -> within lo -> within (hi * z) ->
  exists g n out, read_step (double_arith pow) double_value t = SxDone (Some g) /\ (forall n', (n <= n')%nat -> expand n' (Some g) lo hi = Expanded out) /\
    lists_down (fun v => exists j, 0 <= j /\ v = lo * z ^ j /\ v <= hi) out /\
    (forall v, allowed_value (VRange lo hi) (Some g) v <-> exists j, 0 <= j /\ v = lo * z ^ j /\ v <= hi) /\ leaves_range (VRange lo hi) (Some g).
Proof.
  intros W N I P Z L0 L H. destruct (steps_name_first pow t x SMul y z W N I Z ltac:(discriminate)) as (g & R & G).
  assert (Inc : forall v, lo <= v -> v < v * z) by (intros v B; nia).
  assert (Nx : forall v, lo <= v <= hi -> g v = Some (v * z)) by (intros v B; apply G; unfold within in *; cbn [operation]; nia).
  assert (Q : forall v, (exists j, v = Nat.iter j (fun v => v * z) lo /\ v <= hi) <-> exists j, 0 <= j /\ v = lo * z ^ j /\ v <= hi).
  { intros v. split.
    - intros (j & -> & Hj). rewrite iter_mul in *. exists (Z.of_nat j). split; [lia|]. split; [reflexivity|exact Hj].
    - intros (j & Hj & -> & Hh). exists (Z.to_nat j). rewrite iter_mul, Z2Nat.id by lia. split; [reflexivity|exact Hh]. }
  destruct (expand_increasing g (fun v => v * z) lo hi Inc Nx) as (n & out & E & D). destruct (allowed_increasing g (fun v => v * z) lo hi Inc Nx) as (A & V).
  exists g, n, out. split; [exact R|]. split; [exact E|]. split; [exact (lists_down_ext _ _ _ Q D)|]. split; [|exact V]. intros v. rewrite A. apply Q.
Qed.
