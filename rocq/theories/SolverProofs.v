(** The encoding of constraints and of whole models. *)
From Coq Require Import List ZArith Arith Bool Ascii String Permutation Lia.
From Coq Require Import ZifyBool.
From Verif Require Import Text TextProofs ConstraintModel ConstraintSpec SourceRangeModel StepFunctionModel StepFunctionSpec StepFunctionProofs
  ConfigurationModel FeatureTreeModel FeatureTreeSpec FeatureTreeProofs FeatureOrderProofs FeatureTreeFinal FeatureTransactionModel
  FeatureEditSpec FeatureEditProofs FeatureOpsProofs FeatureHistoryProofs FeatureBuildSpec FeatureCloneProofs SolverModel SolverSpec.
Import ListNotations.
Local Open Scope list_scope.

(** ** Constraints *)
Definition zval (a : assignment) (x : zexpr) : sval :=
  match x with EBool b => Truth (beval a b) | EInt i => Number (ieval a i) end.

Lemma z3_div_quotient a x y : z3_div a x y = quotient (a_div0 a) x y.
Proof.
  unfold z3_div, quotient. destruct (y =? 0)%Z eqn:E; [reflexivity|]. destruct (0 <? y)%Z eqn:P.
  - rewrite Z.sgn_pos, Z.abs_eq by lia. lia.
  - rewrite Z.sgn_neg, Z.abs_neq by lia. lia.
Qed.

Lemma encode_binary_meaning a o x y :
  match encode_binary o x y with
  | Some z => match zval a x, zval a y with
              | Truth p, Truth q => truth_op not_both o p q
              | Number p, Number q => number_op (a_div0 a) o p q
              | _, _ => None
              end = Some (zval a z)
  | None => match zval a x, zval a y with
            | Truth p, Truth q => truth_op not_both o p q
            | Number p, Number q => number_op (a_div0 a) o p q
            | _, _ => None
            end = None
  end.
Proof.
  destruct o, x as [b|i], y as [c|j]; try reflexivity; cbn; try rewrite z3_div_quotient; try reflexivity; do 2 f_equal; unfold not_both;
    try (destruct (beval a b), (beval a c); reflexivity).
Qed.

Lemma leaf_encode h mixed a r : match mention h r with
  | Some (numeric, n) => mentions h r numeric n /\
      leaf_value h mixed a r = Some (if numeric then Number (a_int a n) else if mixed then Number (b2z (a_bool a n)) else Truth (a_bool a n))
  | None => leaf_value h mixed a r = None /\ forall b n, ~ mentions h r b n
  end.
Proof.
  destruct r as [s|i]; cbn.
  - auto.
  - destruct (feature_at h i) as [f|]; cbn.
    + split; [exists f; destruct (f_kind f); auto|]. destruct (f_kind f); reflexivity.
    + split; [reflexivity|]. intros b n (f & E & _). discriminate.
Qed.

(** The value of the encoding, xor being not-both. *)
Lemma encode_meaning h mixed a e : forall vc,
  match encode h mixed e vc with
  | Some (x, vc') => meaning not_both (leaf_value h mixed a) (a_div0 a) e = Some (zval a x) /\
      (beval a vc' = true <-> beval a vc = true \/
        mixed = true /\ exists r n, In r (leaves e) /\ mentions h r false n /\ a_bool a n = false)
  | None => meaning not_both (leaf_value h mixed a) (a_div0 a) e = None
  end.
Proof.
  induction e as [o l IHl r IHr|o e IH|n|r]; intros vc; cbn [encode meaning leaves].
  - specialize (IHl vc). destruct (encode h mixed l vc) as [[x v1]|]; cbn [bind]; [|rewrite IHl; reflexivity].
    destruct IHl as (El & Vl). specialize (IHr v1). destruct (encode h mixed r v1) as [[y v2]|]; cbn [bind].
    2:{ rewrite El, IHr. destruct (zval a x); reflexivity. }
    destruct IHr as (Er & Vr). pose proof (encode_binary_meaning a o x y) as B. rewrite El, Er.
    destruct (encode_binary o x y) as [z|]; cbn [bind]; [|destruct (zval a x), (zval a y); exact B].
    split; [destruct (zval a x), (zval a y); exact B|]. rewrite Vr, Vl. clear. split.
    + intros [[A|(M & q & n & I & X)]|(M & q & n & I & X)]; [left; exact A|right|right]; (split; [exact M|]; exists q, n; split; [apply in_or_app; auto|exact X]).
    + intros [A|(M & q & n & I & X)]; [auto|]. apply in_app_or in I. destruct I as [I|I]; [left; right|right]; (split; [exact M|]; exists q, n; auto).
  - specialize (IH vc). destruct (encode h mixed e vc) as [[x v1]|]; cbn [bind].
    + destruct IH as (E & V). destruct o, x as [b|i]; cbn [zval] in E; rewrite E; cbn; auto.
    + rewrite IH. destruct o; reflexivity.
  - split; [reflexivity|]. split; [auto|]. intros [A|(_ & q & n0 & [] & _)]. exact A.
  - pose proof (leaf_encode h mixed a r) as L. destruct (mention h r) as [[numeric n]|]; cbn [bind]; [|apply L].
    destruct L as (M & L). rewrite L.
    assert (U : forall q b n', In q [r] -> mentions h q b n' -> b = numeric /\ n' = n).
    { intros q b n' [<-|[]] X. destruct r as [s|i]; cbn in M, X; [intuition congruence|].
      destruct M as (f & F & -> & ->), X as (g & G & -> & ->). split; congruence. }
    destruct numeric.
    + split; [reflexivity|]. split; [auto|]. intros [A|(_ & q & n' & I & X & _)]; [exact A|]. destruct (U _ _ _ I X). discriminate.
    + destruct mixed; (split; [cbn; destruct (a_bool a n); reflexivity|]).
      * cbn. rewrite orb_true_iff, negb_true_iff. split.
        -- intros [A|A]; [auto|]. right. split; [reflexivity|]. exists r, n. auto.
        -- intros [A|(_ & q & n' & I & X & A)]; [auto|]. destruct (U _ _ _ I X) as (_ & ->). auto.
      * split; [auto|]. intros [A|(F & _)]; [exact A|discriminate].
Qed.

Lemma meaning_xor_free xor xor' leaf div0 e : xor_free e -> meaning xor leaf div0 e = meaning xor' leaf div0 e.
Proof.
  induction e as [o l IHl r IHr|o e IH|n|r]; cbn [xor_free meaning]; intros X; try reflexivity.
  - destruct X as (N & Xl & Xr). rewrite (IHl Xl), (IHr Xr). destruct (meaning xor' leaf div0 l) as [[a|x]|], (meaning xor' leaf div0 r) as [[b|y]|]; try reflexivity.
    destruct o; try reflexivity. contradiction.
  - rewrite (IH X). reflexivity.
Qed.
(** Whether a constraint is typed, and with which sort, does not depend on xor. *)
Definition kind_of (v : option sval) : option sort := match v with Some (Truth _) => Some SBool | Some (Number _) => Some SInt | None => None end.
Lemma meaning_kind xor xor' leaf leaf' div0 div0' e : (forall r, In r (leaves e) -> kind_of (leaf r) = kind_of (leaf' r)) ->
  kind_of (meaning xor leaf div0 e) = kind_of (meaning xor' leaf' div0' e).
Proof.
  induction e as [o l IHl r IHr|o e IH|n|r]; cbn [leaves meaning]; intros L.
  - assert (L1 : forall r, In r (leaves l) -> kind_of (leaf r) = kind_of (leaf' r)) by (intros q Q; apply L, in_or_app; auto).
    assert (L2 : forall q, In q (leaves r) -> kind_of (leaf q) = kind_of (leaf' q)) by (intros q Q; apply L, in_or_app; auto).
    specialize (IHl L1). specialize (IHr L2).
    destruct (meaning xor leaf div0 l) as [[a|x]|], (meaning xor' leaf' div0' l) as [[a'|x']|]; try discriminate;
      destruct (meaning xor leaf div0 r) as [[b|y]|], (meaning xor' leaf' div0' r) as [[b'|y']|]; try discriminate; try reflexivity;
      destruct o; reflexivity.
  - specialize (IH L). destruct o, (meaning xor leaf div0 e) as [[a|x]|], (meaning xor' leaf' div0' e) as [[a'|x']|]; try discriminate; reflexivity.
  - reflexivity.
  - apply L. left. reflexivity.
Qed.
Lemma leaf_kind h mixed a b r : kind_of (leaf_value h mixed a r) = kind_of (leaf_value h mixed b r).
Proof.
  destruct r as [s|i]; cbn; [destruct mixed; reflexivity|]. destruct (feature_at h i) as [f|]; [|reflexivity].
  destruct (numeric_kind (f_kind f)), mixed; reflexivity.
Qed.

(** Well-typed constraints are encoded. *)
Lemma encode_typed h mixed e : well_typed h mixed e -> exists b vc, encode h mixed e (TConst false) = Some (EBool b, vc).
Proof.
  intros W. set (a := Assignment (fun _ => false) (fun _ => 0%Z) (fun _ => 0%Z)). destruct (W a) as (b & E).
  pose proof (encode_meaning h mixed a e (TConst false)) as M.
  assert (K : kind_of (meaning not_both (leaf_value h mixed a) (a_div0 a) e) = Some SBool).
  { rewrite (meaning_kind not_both xorb _ (leaf_value h mixed a) _ (a_div0 a)) by reflexivity. unfold value_of in E. rewrite E. reflexivity. }
  destruct (encode h mixed e (TConst false)) as [[[t|i] vc]|]; [eauto| |].
  - destruct M as (M & _). rewrite M in K. discriminate.
  - rewrite M in K. discriminate.
Qed.

Lemma add_constraint_spec h e s : well_typed h false e -> exists t,
  add_constraint h e s = done (assert_term s t) /\
  (forall a, Truth (beval a t) = Truth true <-> meaning not_both (leaf_value h false a) (a_div0 a) e = Some (Truth true)).
Proof.
  intros W. destruct (encode_typed h false e W) as (b & vc & E). exists b. unfold add_constraint, add_encoded. rewrite E. cbn. split; [reflexivity|].
  intros a. pose proof (encode_meaning h false a e (TConst false)) as M. rewrite E in M. destruct M as (M & _). rewrite M. cbn. split; congruence.
Qed.

Lemma add_mixed_spec h e k r s : well_typed h true e -> exists t,
  add_mixed h e k r s = done (assert_term s t) /\
  (xor_free e -> forall a, beval a t = true <-> mixed_holds h a e k r).
Proof.
  intros W. destruct (encode_typed h true e W) as (b & vc & E). unfold add_mixed, add_encoded. rewrite E. cbn [bind andb].
  eexists. split; [reflexivity|]. intros Xf a. pose proof (encode_meaning h true a e (TConst false)) as M. rewrite E in M. destruct M as (M & V).
  unfold mixed_holds, value_of. rewrite (meaning_xor_free xorb not_both) by exact Xf. rewrite M. cbn [zval].
  assert (N : beval a (if (match k with ExprNeg => true | ExprPos => false end) then TNot b else b) = true <->
    Some (Truth (beval a b)) = Some (Truth (match k with ExprPos => true | ExprNeg => false end))).
  { destruct k; cbn; [split; congruence|]. rewrite negb_true_iff. split; congruence. }
  destruct r; cbn [beval].
  - rewrite orb_true_iff, V, N. cbn [beval]. split.
    + intros [[F|(_ & q)]|Y]; [discriminate|right; split; [reflexivity|exact q]|left; exact Y].
    + intros [Y|(_ & q)]; [right; exact Y|left; right; split; [reflexivity|exact q]].
  - rewrite N. split; [auto|]. intros [Y|(F & _)]; [exact Y|discriminate].
Qed.
