(** Integers with an exponent that are not exact doubles. *)
From Coq Require Import List ZArith NArith Arith Bool Ascii String SpecFloat Lia.
From Verif Require Import Text TextProofs LlvmInt NumSpec ConstraintModel ConstraintParserModel ConstraintSpec ConstraintRoundTrip StepFunctionModel DoubleModel DoubleSpec DoubleProofs DoubleSciProofs.
Import ListNotations.
Local Open Scope Z_scope.

(** ** Shifting right *)
Definition bit (b : bool) : Z := if b then 1 else 0.
(** The quotient of [x] and [m] cut off before the last [k] bits: the last bit cut off and
    whether there was anything else. *)
Definition cut (m x k : Z) (r : shr_record) : Prop :=
  exists rest, 2 * x = (2 * shr_m r + bit (shr_r r)) * (2 ^ k * m) + rest /\ 0 <= rest < 2 ^ k * m /\ (shr_s r = false <-> rest = 0) /\ 0 <= shr_m r.
Lemma cut_step m x k r : 0 < m -> 0 <= k -> cut m x k r -> cut m x (k + 1) (shr_1 r).
Proof.
  intros Pm K (rest & E & B & S & P). destruct r as [y b s]. cbn [shr_m shr_r shr_s] in *.
  assert (H : exists z c, y = 2 * z + bit c /\ 0 <= z /\ shr_1 (Build_shr_record y b s) = Build_shr_record z c (b || s)).
  { destruct y as [|[p|p|]|p]; [exists 0, false|exists (Zpos p), true|exists (Zpos p), false|exists 0, true|lia]; cbn [bit]; (split; [lia|]; split; [lia|reflexivity]). }
  destruct H as (z & c & -> & Pz & ->). unfold cut. cbn [shr_m shr_r shr_s].
  replace (2 ^ (k + 1) * m) with (2 * (2 ^ k * m)) by (rewrite Z.pow_add_r by lia; change (2 ^ 1) with 2; ring).
  set (u := 2 ^ k * m) in *. exists (bit b * u + rest).
  split; [rewrite E; ring|]. split; [destruct b; cbn [bit]; lia|]. split; [|exact Pz]. destruct b; cbn [bit orb].
  - split; [discriminate|lia].
  - rewrite S. lia.
Qed.
Lemma cut_iter m x r n : 0 < m -> cut m x 0 r -> cut m x (Z.of_nat n) (Nat.iter n shr_1 r).
Proof.
  intros P C. induction n as [|n IH]; [exact C|]. rewrite Nat2Z.inj_succ. apply cut_step; [exact P|lia|exact IH].
Qed.
Lemma cut_rounds m x k r : cut m x k r -> let v := round_nearest_even (shr_m r) (loc_of_shr_record r) in Z.abs (v * (2 ^ k * m) - x) * 2 <= 2 ^ k * m /\ shr_m r <= v <= shr_m r + 1.
Proof.
  intros (rest & E & B & S & P). destruct r as [y b s]. cbn [shr_m shr_r shr_s] in *. cbv zeta. set (u := 2 ^ k * m) in *.
  destruct b, s; cbn [loc_of_shr_record round_nearest_even bit] in *.
  - split; lia.
  - assert (rest = 0) by (apply S; reflexivity). destruct (Z.even y); split; lia.
  - split; lia.
  - assert (rest = 0) by (apply S; reflexivity). split; lia.
Qed.
Lemma cut_floor m x k r : cut m x k r -> shr_m r * (2 ^ k * m) <= x < (shr_m r + 1) * (2 ^ k * m).
Proof. intros (rest & E & B & _ & P). set (u := 2 ^ k * m) in *. destruct (shr_r r); cbn [bit] in E; lia. Qed.
Lemma floor_unique a b u x : 0 < u -> a * u <= x < (a + 1) * u -> b * u <= x < (b + 1) * u -> a = b.
Proof. intros U [A B] [C D]. assert (a < b + 1) by (apply (Z.mul_lt_mono_pos_r u); lia). assert (b < a + 1) by (apply (Z.mul_lt_mono_pos_r u); lia). lia. Qed.

(** ** Rounding *)
(** What rounding [q] times 2 to the [e], [q] being the cut off quotient of [x] and [m], gives:
    [v] times 2 to the [e2]. *)
Definition result (d : double) (v e2 : Z) : Prop :=
  match d with
  | S754_zero s => s = false /\ v = 0
  | S754_finite s p e => s = false /\ e2 <= e /\ Zpos p * 2 ^ (e - e2) = v
  | S754_infinity s => s = false /\ 971 <= e2
  | S754_nan => False
  end.
Lemma round_result m x q e l : 0 < m -> cut m x 0 (shr_record_of_loc q l) -> exists k v, 0 <= k /\ Z.abs (v * (2 ^ k * m) - x) * 2 <= 2 ^ k * m /\ q / 2 ^ k <= v <= 2 ^ 53 /\
  (0 < k -> - 1074 < e + k -> 2 ^ (52 + k) <= q) /\ result (binary_round_aux prec emax false q e l) v (e + k).
Proof.
  intros Pm C. assert (Pq : 0 <= q) by (destruct C as (_ & _ & _ & _ & P); destruct l as [|[]]; exact P).
  assert (Sh : forall r e n, shr r e n = (Nat.iter (Z.to_nat n) shr_1 r, e + Z.max 0 n)).
  { intros r e0 n. unfold shr. destruct n as [|y|y]; [rewrite Z.add_0_r; reflexivity| |rewrite Z.add_0_r; reflexivity]. rewrite iter_pos_nat. reflexivity. }
  set (n := fexp prec emax (Zdigits2 q + e) - e). exists (Z.max 0 n).
  pose proof (cut_iter m x _ (Z.to_nat n) Pm C) as Cn. replace (Z.of_nat (Z.to_nat n)) with (Z.max 0 n) in Cn by lia.
  unfold binary_round_aux, shr_fexp. fold n. rewrite Sh. cbv beta iota. set (r := Nat.iter (Z.to_nat n) shr_1 _) in *. set (k := Z.max 0 n) in *.
  assert (Pk : 0 < 2 ^ k) by (apply Z.pow_pos_nonneg; lia).
  pose proof (cut_rounds _ _ _ _ Cn) as [Err Rg]. cbv zeta in Err, Rg. set (v := round_nearest_even _ _) in *. clearbody v. exists v. split; [lia|]. split; [exact Err|].
  assert (Pr : 0 <= shr_m r) by (destruct Cn as (_ & _ & _ & _ & P); exact P).
  assert (Fl : q / 2 ^ k = shr_m r).
  { apply cut_floor in Cn. apply cut_floor in C. replace (shr_m (shr_record_of_loc q l)) with q in C by (destruct l as [|[]]; reflexivity). change (2 ^ 0) with 1 in C. rewrite Z.mul_1_l in C.
    pose proof (Z.div_mod q (2 ^ k) ltac:(lia)) as D. pose proof (Z.mod_pos_bound q (2 ^ k) Pk) as Bd. set (f := q / 2 ^ k) in *.
    apply (floor_unique f (shr_m r) (2 ^ k * m) x); [nia| |exact Cn]. split; [assert (f * (2 ^ k * m) <= q * m) by nia; lia|]. assert ((q + 1) * m <= (f + 1) * (2 ^ k * m)) by nia. lia. }
  assert (Dg : Zdigits2 q <= k + 53) by (unfold k, n, fexp, emin, prec, emax; lia).
  assert (Up : shr_m r < 2 ^ 53).
  { rewrite <- Fl. apply Z.div_lt_upper_bound; [exact Pk|]. destruct (Z.eq_dec q 0) as [->|Nq]; [nia|]. pose proof (digits_bounds q ltac:(lia)) as [_ Bq].
    assert (2 ^ Zdigits2 q <= 2 ^ (k + 53)) by (apply Z.pow_le_mono_r; lia). rewrite Z.pow_add_r in H by lia. lia. }
  split; [rewrite Fl; lia|]. split.
  { intros K0 Ee. assert (Nq : 0 < q).
    { destruct (Z.eq_dec q 0) as [Eq|Nq]; [|lia]. exfalso. revert Ee K0. unfold k, n. rewrite Eq. unfold fexp, emin, prec, emax. cbn [Zdigits2]. lia. }
    pose proof (digits_bounds q Nq) as [Bq _]. assert (Zdigits2 q = 53 + k) as Dq by (unfold k, n, fexp, emin, prec, emax in *; lia). rewrite Dq in Bq. replace (53 + k - 1) with (52 + k) in Bq by lia. exact Bq. }
  assert (E2 : -1074 <= e + k) by (unfold k, n, fexp, emin, prec, emax; lia).
  assert (Two : exists m' e', shr (Build_shr_record v false false) (e + k) (fexp prec emax (Zdigits2 v + (e + k)) - (e + k)) = (Build_shr_record m' false false, e') /\ 0 <= m' /\ e + k <= e' <= e + k + 1 /\ m' * 2 ^ (e' - (e + k)) = v).
  { destruct (Z.eq_dec v (2 ^ 53)) as [Ev|Nv].
    - rewrite Ev. change (Zdigits2 (2 ^ 53)) with 54. replace (fexp prec emax (54 + (e + k)) - (e + k)) with 1 by (unfold fexp, emin, prec, emax; lia). change (2 ^ 53) with (2 ^ 52 * 2 ^ 1) at 1. rewrite shr_exact by lia.
      exists (2 ^ 52), (e + k + 1). split; [reflexivity|]. split; [lia|]. split; [lia|]. replace (e + k + 1 - (e + k)) with 1 by lia. reflexivity.
    - assert (Dv : Zdigits2 v <= 53) by (destruct (Z.eq_dec v 0) as [->|N0]; [cbn; lia|]; apply digits_small; lia).
      rewrite Sh. replace (Z.to_nat (fexp prec emax (Zdigits2 v + (e + k)) - (e + k))) with 0%nat by (unfold fexp, emin, prec, emax; lia).
      replace (Z.max 0 (fexp prec emax (Zdigits2 v + (e + k)) - (e + k))) with 0 by (unfold fexp, emin, prec, emax; lia). exists v, (e + k). split; [rewrite Z.add_0_r; reflexivity|]. split; [lia|]. split; [lia|]. replace (e + k - (e + k)) with 0 by lia. lia. }
  cbn [shr_record_of_loc]. destruct Two as (m' & e' & -> & P' & Ee & Ve). cbv beta iota. cbn [shr_m]. destruct m' as [|p|p]; try lia.
  - cbn [result]. split; [reflexivity|lia].
  - destruct (Zle_bool e' (emax - prec)) eqn:Le; cbn [result]; (split; [reflexivity|]); [split; [lia|exact Ve]|]. apply Z.leb_gt in Le. unfold emax, prec in Le. lia.
Qed.

(** ** The integer next to a double *)
Lemma nearest_spec p e : exists z, nearest (S754_finite false p e) = Some z /\ 0 <= z /\ (0 <= e -> z = Zpos p * 2 ^ e) /\ (e < 0 -> Z.abs (z * 2 ^ (- e) - Zpos p) * 2 <= 2 ^ (- e)).
Proof.
  unfold nearest. eexists. split; [reflexivity|]. split; [exact (nearest_unsigned (S754_finite false p e) _ eq_refl eq_refl)|]. destruct (Z.leb_spec 0 e) as [L|L].
  - split; [reflexivity|lia].
  - split; [lia|]. intros _. assert (Q : 0 < 2 ^ (- e)) by (apply Z.pow_pos_nonneg; lia). pose proof (Z.div_mod (Zpos p) (2 ^ (- e)) ltac:(lia)) as D. pose proof (Z.mod_pos_bound (Zpos p) (2 ^ (- e)) Q) as B.
    assert (Ev : Z.even (2 ^ (- e)) = true) by (rewrite Z.even_pow by lia; reflexivity).
    unfold Z.div, Z.modulo in *. destruct (Z.div_eucl (Zpos p) (2 ^ (- e))) as [a r]. set (u := 2 ^ (- e)) in *. unfold new_location. rewrite Ev. unfold new_location_even.
    destruct (Zeq_bool r 0) eqn:R; [apply Zeq_bool_eq in R; cbn [round_nearest_even]; lia|]. destruct (Z.compare_spec (2 * r) u) as [C|C|C]; cbn [round_nearest_even].
    + destruct (Z.even a); lia.
    + lia.
    + lia.
Qed.
Definition shown (d : double) : Z := clamped (match nearest d with Some z => print_Z z | None => match d with S754_infinity s => T (if s then "-INF" else "INF") | _ => T "nan" end end).
Lemma shown_nearest d z : nearest d = Some z -> 0 <= z -> shown d = Z.min int64_max z.
Proof.
  intros N P. unfold shown. rewrite N, (print_Z_nonneg z P), clamped_dec by (split; [apply print_N_nonempty|apply print_N_digits]). rewrite print_N_value, Z2N.id by exact P. reflexivity.
Qed.

(** ** Near the number *)
Definition near_max (w x m : Z) : Prop :=
  (2 ^ 63 * m <= x -> w = int64_max) /\ (x < 2 ^ 53 * m -> 4 * Z.abs (w * m - x) <= 3 * m) /\ Z.abs (w * m - Z.min x (int64_max * m)) <= 512 * m.
Lemma clamp_near z x m : 0 < m -> Z.abs (Z.min int64_max z * m - Z.min x (int64_max * m)) <= Z.abs (z * m - x).
Proof. intros P. rewrite <- (Z.mul_min_distr_nonneg_r int64_max z m) by lia. lia. Qed.
Lemma rounded_near x m s q l : 0 < m -> 0 <= x -> 0 <= s -> cut m (x * 2 ^ s) 0 (shr_record_of_loc q l) -> near_max (shown (binary_round_aux prec emax false q (- s) l)) x m.
Proof.
  intros Pm Px Ps C. destruct (round_result m (x * 2 ^ s) q (- s) l Pm C) as (k & v & Pk & Err & [Lv Uv] & Big & R). set (d := binary_round_aux _ _ _ _ _ _) in *. clearbody d.
  assert (Fl : q * m <= x * 2 ^ s < (q + 1) * m).
  { apply cut_floor in C. replace (shr_m (shr_record_of_loc q l)) with q in C by (destruct l as [|[]]; reflexivity). change (2 ^ 0) with 1 in C. lia. }
  assert (Pq : 0 <= q) by (destruct C as (_ & _ & _ & _ & P); destruct l as [|[]]; exact P). clear C.
  assert (Ss : 0 < 2 ^ s) by (apply Z.pow_pos_nonneg; lia). assert (Sk : 0 < 2 ^ k) by (apply Z.pow_pos_nonneg; lia).
  assert (Pv : 0 <= v) by (pose proof (Z.div_pos q (2 ^ k) Pq Sk); lia).
  destruct (Z_lt_le_dec (- s + k) 0) as [Ne|Ge].
  - (* the result has digits behind the dot *)
    remember (2 ^ (s - k)) as u eqn:Eu. assert (Hu : 2 <= u) by (subst u; change 2 with (2 ^ 1) at 1; apply Z.pow_le_mono_r; lia).
    assert (E1 : 2 ^ s = u * 2 ^ k) by (subst u; rewrite <- Z.pow_add_r by lia; f_equal; lia). rewrite E1 in Err.
    assert (V : Z.abs (v * m - x * u) * 2 <= m).
    { replace (v * (2 ^ k * m) - x * (u * 2 ^ k)) with ((v * m - x * u) * 2 ^ k) in Err by ring. rewrite Z.abs_mul, (Z.abs_eq (2 ^ k)) in Err by lia. nia. }
    assert (N : exists z, nearest d = Some z /\ 0 <= z /\ Z.abs (z * u - v) * 2 <= u).
    { destruct d as [b|b| |b p e]; cbn [result] in R.
      - exists 0. destruct R as [_ ->]. split; [reflexivity|]. lia.
      - lia.
      - destruct R.
      - destruct R as (-> & Le & Ev). destruct (nearest_spec p e) as (z & -> & Pz & A & B). exists z. split; [reflexivity|]. split; [exact Pz|].
        destruct (Z_lt_le_dec e 0) as [Ln|Lp].
        + specialize (B Ln). assert (Pw : 0 < 2 ^ (e - (- s + k))) by (apply Z.pow_pos_nonneg; lia).
          assert (u = 2 ^ (- e) * 2 ^ (e - (- s + k))) as -> by (subst u; rewrite <- Z.pow_add_r by lia; f_equal; lia). rewrite <- Ev.
          replace (z * (2 ^ (- e) * 2 ^ (e - (- s + k))) - Zpos p * 2 ^ (e - (- s + k))) with ((z * 2 ^ (- e) - Zpos p) * 2 ^ (e - (- s + k))) by ring.
          rewrite Z.abs_mul, (Z.abs_eq (2 ^ (e - (- s + k)))) by lia. nia.
        + rewrite (A Lp). assert (z * u = v) as Ez.
          { rewrite (A Lp), <- Ev. subst u. rewrite <- Z.mul_assoc, <- Z.pow_add_r by lia. f_equal. f_equal. lia. }
          rewrite <- (A Lp), Ez. lia. }
    destruct N as (z & N & Pz & Z1). rewrite (shown_nearest d z N Pz).
    assert (D : 4 * Z.abs (z * m - x) <= 3 * m).
    { assert (Z.abs ((z * u - v) * m) * 2 <= u * m) by (rewrite Z.abs_mul, (Z.abs_eq m) by lia; nia).
      assert (H2 : Z.abs (z * u * m - x * u) * 2 <= u * m + m) by lia.
      replace (z * u * m - x * u) with ((z * m - x) * u) in H2 by ring. rewrite Z.abs_mul, (Z.abs_eq u) in H2 by lia. set (a := Z.abs (z * m - x)) in *.
      destruct (Z_le_gt_dec (4 * a) (3 * m)) as [La|La]; [exact La|]. exfalso. assert (3 * m * u < 4 * a * u) by (apply Z.mul_lt_mono_pos_r; lia). assert (2 * m <= u * m) by (apply Z.mul_le_mono_nonneg_r; lia). lia. }
    assert (Sz : z <= 2 ^ 53).
    { destruct (Z_le_gt_dec z (2 ^ 53)) as [?|Gz]; [assumption|]. exfalso. assert ((2 ^ 53 + 1) * u <= z * u) by (apply Z.mul_le_mono_nonneg_r; lia). lia. } replace (Z.min int64_max z) with z by (unfold int64_max; lia).
    unfold near_max. split; [|split; [intros _; exact D|]].
    + intros L. exfalso. assert (x * 2 <= x * u) by (apply Z.mul_le_mono_nonneg_l; lia). assert (v * m <= 2 ^ 53 * m) by (apply Z.mul_le_mono_nonneg_r; lia). lia.
    + pose proof (clamp_near z x m Pm) as K. replace (Z.min int64_max z) with z in K by (unfold int64_max; lia). lia.
  - (* the result is an integer *)
    set (e2 := - s + k) in *. assert (Ek : k = s + e2) by lia. remember (2 ^ e2) as u eqn:Eu. assert (Hu : 1 <= u) by (subst u; change 1 with (2 ^ 0); apply Z.pow_le_mono_r; lia).
    assert (E1 : 2 ^ k = u * 2 ^ s) by (subst u; rewrite <- Z.pow_add_r by lia; f_equal; lia). rewrite E1 in Err.
    assert (V : Z.abs (v * u * m - x) * 2 <= u * m).
    { replace (v * (u * 2 ^ s * m) - x * 2 ^ s) with ((v * u * m - x) * 2 ^ s) in Err by ring. rewrite Z.abs_mul, (Z.abs_eq (2 ^ s)) in Err by lia. nia. }
    assert (Bx : 1 <= e2 -> 2 ^ (52 + e2) * m <= x).
    { intros L. specialize (Big ltac:(lia) ltac:(lia)). replace (52 + k) with ((52 + e2) + s) in Big by lia. rewrite Z.pow_add_r in Big by lia. nia. }
    assert (Bv : 2 ^ 63 * m <= x -> 2 ^ 63 <= v * u).
    { intros L. destruct (Z_le_gt_dec e2 63) as [Le|Gt].
      - assert (Hq : 2 ^ 63 * 2 ^ s <= q) by (assert (2 ^ 63 * 2 ^ s * m < (q + 1) * m) by nia; assert (2 ^ 63 * 2 ^ s < q + 1) by (apply (Z.mul_lt_mono_pos_r m); lia); lia).
        assert (Hv : 2 ^ (63 - e2) <= v).
        { apply Z.le_trans with (q / 2 ^ k); [|exact Lv]. apply Z.div_le_lower_bound; [exact Sk|]. rewrite <- Z.pow_add_r in Hq by lia. rewrite <- Z.pow_add_r by lia. replace (k + (63 - e2)) with (63 + s) by lia. exact Hq. }
        assert (2 ^ 63 = 2 ^ (63 - e2) * u) as -> by (subst u; rewrite <- Z.pow_add_r by lia; f_equal; lia). apply Z.mul_le_mono_nonneg_r; lia.
      - specialize (Big ltac:(lia) ltac:(lia)). assert (1 <= v).
        { apply Z.le_trans with (q / 2 ^ k); [|exact Lv]. apply Z.div_le_lower_bound; [exact Sk|]. rewrite Z.pow_add_r in Big by lia. lia. }
        assert (2 ^ 63 <= u) by (subst u; apply Z.pow_le_mono_r; lia). assert (1 * u <= v * u) by (apply Z.mul_le_mono_nonneg_r; lia). lia. }
    assert (Sh : shown d = Z.min int64_max (v * u) /\ True \/ shown d = int64_max /\ 971 <= e2).
    { destruct d as [b|b| |b p e]; cbn [result] in R.
      - left. split; [|exact I]. destruct R as [_ ->]. rewrite (shown_nearest (S754_zero b) 0 eq_refl (Z.le_refl 0)). reflexivity.
      - right. destruct R as [-> L]. split; [reflexivity|exact L].
      - destruct R.
      - left. split; [|exact I]. destruct R as (-> & Le & Ev). destruct (nearest_spec p e) as (z & N & Pz & A & _). rewrite (shown_nearest _ z N Pz). f_equal. rewrite (A ltac:(lia)), <- Ev. subst u.
        rewrite <- Z.mul_assoc, <- Z.pow_add_r by lia. f_equal. f_equal. lia. }
    destruct Sh as [[-> _]|[-> Inf]].
    + unfold near_max. split; [intros L; specialize (Bv L); unfold int64_max; lia|]. split.
      * intros L. assert (e2 = 0) as E0.
        { destruct (Z_le_gt_dec e2 0) as [?|G]; [lia|]. specialize (Bx ltac:(lia)). assert (Hp : 2 ^ 53 <= 2 ^ (52 + e2)) by (apply Z.pow_le_mono_r; lia). apply (Z.mul_le_mono_nonneg_r _ _ m) in Hp; lia. }
        rewrite E0 in Eu. change (2 ^ 0) with 1 in Eu. rewrite Eu in *. rewrite Z.mul_1_r in *. replace (Z.min int64_max v) with v by (unfold int64_max; lia). lia.
      * pose proof (clamp_near (v * u) x m Pm) as K. destruct (Z_lt_le_dec x (2 ^ 63 * m)) as [L|L].
        -- assert (e2 <= 10) as Le.
           { destruct (Z_le_gt_dec e2 10) as [?|G]; [lia|]. specialize (Bx ltac:(lia)). assert (Hp : 2 ^ 63 <= 2 ^ (52 + e2)) by (apply Z.pow_le_mono_r; lia). apply (Z.mul_le_mono_nonneg_r _ _ m) in Hp; lia. }
           assert (u <= 2 ^ 10) by (subst u; apply Z.pow_le_mono_r; lia). change (2 ^ 10) with 1024 in H. apply (Z.mul_le_mono_nonneg_r _ _ m) in H; lia.
        -- specialize (Bv L). replace (Z.min int64_max (v * u)) with int64_max by (unfold int64_max; lia). replace (Z.min x (int64_max * m)) with (int64_max * m) by (unfold int64_max; lia). lia.
    + specialize (Bx ltac:(lia)). assert (Hx : 2 ^ 63 * m <= x) by (assert (Hp : 2 ^ 63 <= 2 ^ (52 + e2)) by (apply Z.pow_le_mono_r; lia); apply (Z.mul_le_mono_nonneg_r _ _ m) in Hp; lia).
      unfold near_max. split; [reflexivity|]. split; [intros L; lia|]. replace (Z.min x (int64_max * m)) with (int64_max * m) by (unfold int64_max; lia). lia.
Qed.

(** ** Numerals *)
Lemma new_location_cut m x q r : 0 < m -> x = m * q + r -> 0 <= r < m -> 0 <= q -> Z.even m = true -> cut m x 0 (shr_record_of_loc q (new_location m r)).
Proof.
  intros P E B Q Ev. unfold new_location. rewrite Ev. unfold new_location_even. unfold cut. change (2 ^ 0) with 1. rewrite Z.mul_1_l.
  destruct (Zeq_bool r 0) eqn:R; [apply Zeq_bool_eq in R; exists 0; cbn [shr_record_of_loc shr_m shr_r shr_s bit]; repeat split; lia|].
  apply Zeq_bool_neq in R. destruct (Z.compare_spec (2 * r) m) as [C|C|C]; cbn [shr_record_of_loc shr_m shr_r shr_s bit].
  - exists 0. repeat split; lia.
  - exists (2 * r). repeat split; try discriminate; lia.
  - exists (2 * r - m). repeat split; try discriminate; lia.
Qed.
Lemma decimal_near n q : near_max (shown (of_decimal n q)) (Z.of_N n * 10 ^ Z.max 0 q) (10 ^ Z.max 0 (- q)).
Proof.
  unfold of_decimal. destruct (Z.leb_spec 0 q) as [L|L].
  - replace (Z.max 0 q) with q by lia. replace (Z.max 0 (- q)) with 0 by lia. change (10 ^ 0) with 1. assert (P : 0 <= Z.of_N n * 10 ^ q) by (apply Z.mul_nonneg_nonneg; [lia|apply Z.pow_nonneg; lia]).
    set (z := Z.of_N n * 10 ^ q) in *. clearbody z. destruct (Z_lt_le_dec z (2 ^ 53)) as [Sm|Lg].
    + assert (W : within z) by (unfold within; lia). rewrite of_int_exact by exact W. rewrite (shown_nearest _ z (nearest_exact z W) P). unfold near_max, int64_max. lia.
    + destruct z as [|p|p]; try lia. unfold of_int, binary_normalize, binary_round.
      assert (Dg : 53 < Zdigits2 (Zpos p)).
      { pose proof (digits_bounds (Zpos p) ltac:(lia)) as [_ B]. destruct (Z_lt_le_dec 53 (Zdigits2 (Zpos p))) as [H|H]; [exact H|]. exfalso. assert (2 ^ Zdigits2 (Zpos p) <= 2 ^ 53) by (apply Z.pow_le_mono_r; lia). lia. }
      change (Zpos (digits2_pos p)) with (Zdigits2 (Zpos p)). rewrite Z.add_0_r, fexp_small by lia.
      replace (shl_align p 0 (Zdigits2 (Zpos p) - 53)) with (p, 0) by (unfold shl_align; rewrite Z.sub_0_r; destruct (Zdigits2 (Zpos p) - 53) eqn:E; [reflexivity|reflexivity|lia]).
      cbv beta iota. apply (rounded_near (Zpos p) 1 0 (Zpos p) loc_Exact); [lia|lia|lia|]. exists 0. cbn [shr_record_of_loc shr_m shr_r shr_s bit]. change (2 ^ 0) with 1. repeat split; lia.
  - replace (Z.max 0 q) with 0 by lia. replace (Z.max 0 (- q)) with (- q) by lia. change (10 ^ 0) with 1. rewrite Z.mul_1_r. assert (Pm : 0 < 10 ^ (- q)) by (apply Z.pow_pos_nonneg; lia).
    assert (Ev : Z.even (10 ^ (- q)) = true) by (rewrite Z.even_pow by lia; reflexivity).
    destruct n as [|p]; [rewrite (shown_nearest (S754_zero false) 0 eq_refl (Z.le_refl 0)); unfold near_max, int64_max; lia|].
    unfold SFdiv_core_binary. set (m := 10 ^ (- q)) in *. set (e' := Z.min _ _). assert (He : e' <= 0) by (unfold e'; lia). rewrite !Z.sub_0_l.
    replace (match - e' with 0 => Z.of_N (N.pos p) | Zpos _ => Z.shiftl (Z.of_N (N.pos p)) (- e') | Zneg _ => 0 end) with (Z.of_N (N.pos p) * 2 ^ (- e')).
    2:{ destruct (- e') as [|y|y] eqn:Y; [rewrite Z.mul_1_r; reflexivity|rewrite Z.shiftl_mul_pow2 by lia; reflexivity|lia]. }
    set (x := Z.of_N (N.pos p)) in *. assert (Px : 0 <= x) by lia. clearbody x. assert (P2 : 0 < 2 ^ (- e')) by (apply Z.pow_pos_nonneg; lia).
    pose proof (Z.div_mod (x * 2 ^ (- e')) m ltac:(lia)) as D. pose proof (Z.mod_pos_bound (x * 2 ^ (- e')) m Pm) as B. pose proof (Z.div_pos (x * 2 ^ (- e')) m ltac:(nia) Pm) as Q.
    unfold Z.div, Z.modulo in *. destruct (Z.div_eucl (x * 2 ^ (- e')) m) as [a r]. replace e' with (- (- e')) by lia. apply rounded_near; [exact Pm|exact Px|lia|].
    apply new_location_cut; try assumption; lia.
Qed.
Theorem scientific_near t n q : scientific t n q -> Z.abs q < 24000 -> near (literal_value sci_double t) (Z.of_N n * 10 ^ Z.max 0 q) (10 ^ Z.max 0 (- q)).
Proof.
  intros Sc L. destruct (scientific_lower t n q Sc L) as (a & r & [Na Da] & Lo & En & R & Ex). unfold literal_value. rewrite Ex.
  unfold sci_double, get_as_double. rewrite Lo. destruct (split_exponent a r Da) as [-> ->]. rewrite Da, R, <- En.
  destruct a as [|c a]; [destruct (Na eq_refl)|]. exact (decimal_near n q).
Qed.
