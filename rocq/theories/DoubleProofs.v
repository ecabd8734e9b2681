(** Integers below 2^53 are exact in doubles. *)
From Coq Require Import List ZArith NArith Arith Bool Ascii String SpecFloat Zpow_facts Lia.
From Verif Require Import Text NumSpec StepFunctionModel DoubleModel.
Import ListNotations.
Local Open Scope Z_scope.

(** ** Digits *)
Lemma digits_pos p : 2 ^ (Zpos (digits2_pos p) - 1) <= Zpos p < 2 ^ Zpos (digits2_pos p).
Proof.
  induction p as [p IH|p IH|]; cbn [digits2_pos]; [| |cbn; lia].
  - rewrite Pos2Z.inj_succ. replace (Z.succ (Zpos (digits2_pos p)) - 1) with (Zpos (digits2_pos p)) by lia. rewrite Z.pow_succ_r by lia.
    replace (2 ^ Zpos (digits2_pos p)) with (2 * 2 ^ (Zpos (digits2_pos p) - 1)) in * by (rewrite <- Z.pow_succ_r by lia; f_equal; lia). lia.
  - rewrite Pos2Z.inj_succ. replace (Z.succ (Zpos (digits2_pos p)) - 1) with (Zpos (digits2_pos p)) by lia. rewrite Z.pow_succ_r by lia.
    replace (2 ^ Zpos (digits2_pos p)) with (2 * 2 ^ (Zpos (digits2_pos p) - 1)) in * by (rewrite <- Z.pow_succ_r by lia; f_equal; lia). lia.
Qed.
Lemma digits_bounds m : 0 < m -> 2 ^ (Zdigits2 m - 1) <= m < 2 ^ Zdigits2 m.
Proof. destruct m; try lia. intros _. apply digits_pos. Qed.
Lemma digits_positive m : 0 < m -> 0 < Zdigits2 m.
Proof. destruct m; cbn; lia. Qed.
Lemma digits_unique m d : 0 < d -> 2 ^ (d - 1) <= m < 2 ^ d -> Zdigits2 m = d.
Proof.
  intros D [A B]. assert (0 < 2 ^ (d - 1)) by (apply Z.pow_pos_nonneg; lia). assert (P : 0 < m) by lia.
  pose proof (digits_bounds m P) as [C E]. pose proof (digits_positive m P).
  assert (Zdigits2 m - 1 < d) by (apply (Z.pow_lt_mono_r_iff 2); lia).
  assert (d - 1 < Zdigits2 m) by (apply (Z.pow_lt_mono_r_iff 2); lia). lia.
Qed.
Lemma digits_scaled m k : 0 < m -> 0 <= k -> Zdigits2 (m * 2 ^ k) = Zdigits2 m + k.
Proof.
  intros P K. pose proof (digits_bounds m P) as [A B]. pose proof (digits_positive m P).
  apply digits_unique; [lia|]. replace (Zdigits2 m + k - 1) with ((Zdigits2 m - 1) + k) by lia. rewrite !Z.pow_add_r by lia.
  assert (0 < 2 ^ k) by (apply Z.pow_pos_nonneg; lia). nia.
Qed.
Lemma digits_small m : 0 < m < 2 ^ 53 -> Zdigits2 m <= 53.
Proof.
  intros [P L]. pose proof (digits_bounds m P) as [A _]. pose proof (digits_positive m P).
  assert (Zdigits2 m - 1 < 53) by (apply (Z.pow_lt_mono_r_iff 2); lia). lia.
Qed.

(** ** Shifting *)
Lemma iter_pos_nat {A} (f : A -> A) n : forall x, iter_pos f n x = Nat.iter (Pos.to_nat n) f x.
Proof.
  assert (P : forall a b (x : A), Nat.iter (a + b) f x = Nat.iter a f (Nat.iter b f x)).
  { induction a as [|a IH]; intros b x; [reflexivity|]. change (f (Nat.iter (a + b) f x) = f (Nat.iter a f (Nat.iter b f x))). rewrite IH. reflexivity. }
  induction n as [n IH|n IH|]; intros x; cbn [iter_pos].
  - rewrite !IH, Pos2Nat.inj_xI. replace (S (2 * Pos.to_nat n))%nat with (Pos.to_nat n + (Pos.to_nat n + 1))%nat by lia. rewrite !P. reflexivity.
  - rewrite !IH, Pos2Nat.inj_xO. replace (2 * Pos.to_nat n)%nat with (Pos.to_nat n + Pos.to_nat n)%nat by lia. rewrite P. reflexivity.
  - reflexivity.
Qed.
Lemma shr_even m : 0 < m -> shr_1 (Build_shr_record (m * 2) false false) = Build_shr_record m false false.
Proof. destruct m as [|p|p]; try lia. intros _. rewrite Z.mul_comm. reflexivity. Qed.
Lemma shr_scaled n : forall m, 0 < m -> Nat.iter n shr_1 (Build_shr_record (m * 2 ^ Z.of_nat n) false false) = Build_shr_record m false false.
Proof.
  induction n as [|n IH]; intros m P; [change (Build_shr_record (m * 2 ^ 0) false false = Build_shr_record m false false); f_equal; lia|].
  replace (m * 2 ^ Z.of_nat (S n)) with ((m * 2) * 2 ^ Z.of_nat n) by (rewrite Nat2Z.inj_succ, Z.pow_succ_r by lia; lia).
  change (shr_1 (Nat.iter n shr_1 (Build_shr_record (m * 2 * 2 ^ Z.of_nat n) false false)) = Build_shr_record m false false).
  rewrite IH by lia. apply shr_even. exact P.
Qed.
Lemma shr_exact m e n : 0 < m -> 0 <= n -> shr (Build_shr_record (m * 2 ^ n) false false) e n = (Build_shr_record m false false, e + n).
Proof.
  intros P N. unfold shr. destruct n as [|p|p]; [rewrite Z.mul_1_r, Z.add_0_r; reflexivity| |lia].
  rewrite iter_pos_nat. rewrite <- (positive_nat_Z p) at 1. rewrite shr_scaled by exact P. reflexivity.
Qed.

(** ** The double of an integer *)
Definition canon (s : bool) (m : Z) : double := S754_finite s (Z.to_pos (m * 2 ^ (53 - Zdigits2 m))) (Zdigits2 m - 53).
Lemma fexp_small d : 1 <= d -> fexp prec emax d = d - 53.
Proof. intros. unfold fexp, emin, prec, emax. lia. Qed.
Lemma round_exact s m k : 0 < m < 2 ^ 53 -> 53 - Zdigits2 m <= k -> binary_round_aux prec emax s (m * 2 ^ k) (- k) loc_Exact = canon s m.
Proof.
  intros B K. pose proof (digits_small m B). assert (P : 0 < m) by lia. pose proof (digits_positive m P).
  assert (P' : 0 < m * 2 ^ (53 - Zdigits2 m)) by (apply Z.mul_pos_pos; [lia|apply Z.pow_pos_nonneg; lia]).
  unfold binary_round_aux, shr_fexp. rewrite digits_scaled by lia.
  replace (Zdigits2 m + k + - k) with (Zdigits2 m) by lia. rewrite fexp_small by lia. cbn [shr_record_of_loc].
  replace (m * 2 ^ k) with ((m * 2 ^ (53 - Zdigits2 m)) * 2 ^ (Zdigits2 m - 53 - - k)).
  2:{ rewrite <- Z.mul_assoc, <- Z.pow_add_r by lia. f_equal. f_equal. lia. }
  rewrite shr_exact by lia. cbn [shr_m loc_of_shr_record round_nearest_even].
  rewrite digits_scaled by lia. replace (Zdigits2 m + (53 - Zdigits2 m) + (- k + (Zdigits2 m - 53 - - k))) with (Zdigits2 m) by lia.
  rewrite fexp_small by lia. replace (Zdigits2 m - 53 - (- k + (Zdigits2 m - 53 - - k))) with 0 by lia. cbn [shr shr_m].
  destruct (m * 2 ^ (53 - Zdigits2 m)) as [|q|q] eqn:E; try lia.
  replace (Zle_bool (- k + (Zdigits2 m - 53 - - k)) (emax - prec)) with true by (symmetry; apply Z.leb_le; unfold emax, prec; lia).
  unfold canon. rewrite E. cbn [Z.to_pos]. f_equal. lia.
Qed.
Lemma round_small s p k : 0 <= k -> forall m, Zpos p = m * 2 ^ k -> 0 < m < 2 ^ 53 -> binary_round prec emax s p (- k) = canon s m.
Proof.
  intros K m E B. pose proof (digits_small m B). assert (P : 0 < m) by lia. pose proof (digits_positive m P).
  unfold binary_round. change (Zpos (digits2_pos p)) with (Zdigits2 (Zpos p)). rewrite E, digits_scaled by lia.
  replace (Zdigits2 m + k + - k) with (Zdigits2 m) by lia. rewrite fexp_small by lia. unfold shl_align.
  destruct (Zdigits2 m - 53 - - k) as [|q|q] eqn:D.
  - rewrite E. apply round_exact; [exact B|lia].
  - rewrite E. apply round_exact; [exact B|lia].
  - rewrite shift_pos_correct, E. replace (Z.pow_pos 2 q * (m * 2 ^ k)) with (m * 2 ^ (53 - Zdigits2 m)).
    + replace (Zdigits2 m - 53) with (- (53 - Zdigits2 m)) by lia. apply round_exact; [exact B|lia].
    + change (Z.pow_pos 2 q) with (2 ^ Zpos q). replace (53 - Zdigits2 m) with (Zpos q + k) by lia. rewrite Z.pow_add_r by lia. ring.
Qed.
Definition small (z : Z) : Prop := - 2 ^ 53 < z < 2 ^ 53.
Definition exact_double (z : Z) : double :=
  match z with Z0 => S754_zero false | Zpos p => canon false (Zpos p) | Zneg p => canon true (Zpos p) end.
Lemma normalize_exact z k b : small z -> z <> 0 -> 0 <= k -> binary_normalize prec emax (z * 2 ^ k) (- k) b = exact_double z.
Proof.
  unfold small. intros S N K. assert (0 < 2 ^ k) by (apply Z.pow_pos_nonneg; lia).
  destruct z as [|p|p]; [lia| |]; unfold binary_normalize, exact_double.
  - destruct (Zpos p * 2 ^ k) as [|q|q] eqn:E; try nia. apply round_small; [lia|symmetry; exact E|lia].
  - destruct (Zneg p * 2 ^ k) as [|q|q] eqn:E; try nia. apply round_small; [lia|nia|lia].
Qed.
Lemma of_int_exact z : small z -> of_int z = exact_double z.
Proof.
  intros S. destruct (Z.eq_dec z 0) as [->|N]; [reflexivity|]. unfold of_int.
  pose proof (normalize_exact z 0 false S N ltac:(lia)) as H. rewrite Z.mul_1_r in H. exact H.
Qed.

(** ** Back to integers *)
Lemma truncated_exact z : small z -> truncated (exact_double z) = Some z.
Proof.
  unfold small. intros S.
  assert (H : forall p s, Zpos p < 2 ^ 53 -> truncated (canon s (Zpos p)) = Some (if s then Zneg p else Zpos p)).
  { intros p s L. unfold canon, truncated. assert (B : 0 < Zpos p < 2 ^ 53) by lia. pose proof (digits_small _ B) as D. set (d := Zdigits2 (Zpos p)) in *.
    assert (0 < 2 ^ (53 - d)) by (apply Z.pow_pos_nonneg; lia). rewrite Z2Pos.id by nia.
    replace (if 0 <=? d - 53 then Zpos p * 2 ^ (53 - d) * 2 ^ (d - 53) else Zpos p * 2 ^ (53 - d) / 2 ^ (- (d - 53))) with (Zpos p); [destruct s; reflexivity|].
    destruct (Z.leb_spec 0 (d - 53)).
    - replace d with 53 by lia. cbn. lia.
    - replace (- (d - 53)) with (53 - d) by lia. rewrite Z.div_mul by lia. reflexivity. }
  destruct z as [|p|p]; cbn [exact_double]; [reflexivity| |]; rewrite H by lia; reflexivity.
Qed.
Lemma to_int_of d z : truncated d = Some z -> small z -> to_int d = Some z.
Proof.
  unfold small, to_int. intros -> S. replace (- 2 ^ 63 <=? z) with true by (symmetry; apply Z.leb_le; lia). replace (z <? 2 ^ 63) with true by (symmetry; apply Z.ltb_lt; lia). reflexivity.
Qed.

(** ** Arithmetic *)
Lemma shl_align_scaled m e e' : 0 < m -> e' <= e -> Zpos (fst (shl_align (Z.to_pos m) e e')) = m * 2 ^ (e - e').
Proof.
  intros P L. unfold shl_align. destruct (e' - e) as [|q|q] eqn:D; try lia.
  - cbn [fst]. replace (e - e') with 0 by lia. rewrite Z2Pos.id; lia.
  - cbn [fst]. rewrite shift_pos_correct, Z2Pos.id by lia. replace (e - e') with (Zpos q) by lia. rewrite Z.mul_comm. reflexivity.
Qed.
Lemma exact_finite z : small z -> z <> 0 -> exists s m, exact_double z = canon s m /\ 0 < m < 2 ^ 53 /\ cond_Zopp s m = z.
Proof. unfold small. intros S N. destruct z as [|p|p]; [lia| |]; [exists false, (Zpos p)|exists true, (Zpos p)]; (split; [reflexivity|]; split; [lia|reflexivity]). Qed.
Lemma add_exact a b : small a -> small b -> small (a + b) -> SFadd prec emax (exact_double a) (exact_double b) = exact_double (a + b).
Proof.
  intros A B C. destruct (Z.eq_dec a 0) as [->|Na].
  { cbn [exact_double Z.add]. destruct b; reflexivity. }
  destruct (Z.eq_dec b 0) as [->|Nb].
  { rewrite Z.add_0_r. cbn [exact_double]. destruct a; [lia|reflexivity|reflexivity]. }
  destruct (exact_finite a A Na) as (s & m & -> & M & Ea). destruct (exact_finite b B Nb) as (s' & n & -> & N & Eb).
  unfold canon. cbn [SFadd]. pose proof (digits_small m M). pose proof (digits_small n N).
  set (d := Zdigits2 m) in *. set (d' := Zdigits2 n) in *. set (ez := Z.min (d - 53) (d' - 53)).
  assert (0 < 2 ^ (53 - d)) by (apply Z.pow_pos_nonneg; lia). assert (0 < 2 ^ (53 - d')) by (apply Z.pow_pos_nonneg; lia).
  rewrite !shl_align_scaled by (try nia; unfold ez; lia).
  rewrite <- !Z.mul_assoc, <- !Z.pow_add_r by (unfold ez; lia).
  replace (53 - d + (d - 53 - ez)) with (- ez) by lia. replace (53 - d' + (d' - 53 - ez)) with (- ez) by lia.
  replace (cond_Zopp s (m * 2 ^ (- ez)) + cond_Zopp s' (n * 2 ^ (- ez))) with ((a + b) * 2 ^ (- ez)) by (subst a b; destruct s, s'; cbn [cond_Zopp]; ring).
  destruct (Z.eq_dec (a + b) 0) as [->|Nab]; [reflexivity|].
  rewrite <- (Z.opp_involutive ez) at 2. apply normalize_exact; [exact C|exact Nab|unfold ez; lia].
Qed.
Lemma mul_exact a b : small a -> small b -> small (a * b) -> truncated (SFmul prec emax (exact_double a) (exact_double b)) = Some (a * b).
Proof.
  intros A B C. destruct (Z.eq_dec a 0) as [->|Na].
  { cbn [exact_double Z.mul]. destruct b; reflexivity. }
  destruct (Z.eq_dec b 0) as [->|Nb].
  { rewrite Z.mul_0_r. cbn [exact_double]. destruct a; reflexivity. }
  destruct (exact_finite a A Na) as (s & m & -> & M & Ea). destruct (exact_finite b B Nb) as (s' & n & -> & N & Eb).
  unfold canon. cbn [SFmul]. pose proof (digits_small m M). pose proof (digits_small n N).
  assert (Pm : 0 < m) by lia. assert (Pn : 0 < n) by lia.
  pose proof (digits_bounds m Pm) as [Bm _]. pose proof (digits_bounds n Pn) as [Bn _]. pose proof (digits_positive m Pm). pose proof (digits_positive n Pn).
  assert (Mn : 0 < m * n < 2 ^ 53). { unfold small in C. subst a b. destruct s, s'; cbn [cond_Zopp] in C; nia. }
  set (d := Zdigits2 m) in *. set (d' := Zdigits2 n) in *.
  assert (0 < 2 ^ (53 - d)) by (apply Z.pow_pos_nonneg; lia). assert (0 < 2 ^ (53 - d')) by (apply Z.pow_pos_nonneg; lia).
  rewrite Pos2Z.inj_mul, !Z2Pos.id by nia.
  replace (m * 2 ^ (53 - d) * (n * 2 ^ (53 - d'))) with (m * n * 2 ^ (106 - d - d')) by (replace (106 - d - d') with ((53 - d) + (53 - d')) by lia; rewrite Z.pow_add_r by lia; ring).
  replace (d - 53 + (d' - 53)) with (- (106 - d - d')) by lia.
  assert (D : d + d' - 1 <= Zdigits2 (m * n)).
  { pose proof (digits_bounds (m * n) (proj1 Mn)) as [_ U]. assert (2 ^ (d - 1 + (d' - 1)) <= m * n) by (rewrite Z.pow_add_r by lia; apply Z.mul_le_mono_nonneg; try (apply Z.pow_nonneg; lia); assumption).
    assert (d - 1 + (d' - 1) < Zdigits2 (m * n)); [|lia]. apply (Z.pow_lt_mono_r_iff 2); [lia| |lia]. pose proof (digits_positive (m * n) (proj1 Mn)). lia. }
  rewrite round_exact by lia.
  assert (E : canon (xorb s s') (m * n) = exact_double (a * b)).
  { subst a b. destruct m as [|p|p], n as [|q|q]; try lia. destruct s, s'; reflexivity. }
  rewrite E. apply truncated_exact. exact C.
Qed.

(** ** Decimals *)
Lemma decimal_exact n q z : small z -> (if 0 <=? q then Z.of_N n * 10 ^ q = z else Z.of_N n = z * 10 ^ (- q)) -> of_decimal n q = exact_double z.
Proof.
  intros S E. unfold of_decimal. destruct (Z.leb_spec 0 q) as [Q|Q].
  - rewrite E. apply of_int_exact. exact S.
  - assert (T10 : 0 < 10 ^ (- q)) by (apply Z.pow_pos_nonneg; lia).
    destruct n as [|p]; [replace z with 0 by (cbn in E; nia); reflexivity|].
    set (N := Z.of_N (N.pos p)) in *. assert (PN : 0 < N) by (subst N; lia). assert (Pz : 0 < z) by nia. assert (B : 0 < z < 2 ^ 53) by (unfold small in S; lia).
    pose proof (digits_small z B). pose proof (digits_positive z Pz). pose proof (digits_positive N PN). pose proof (digits_positive _ T10).
    pose proof (digits_bounds z Pz). pose proof (digits_bounds N PN). pose proof (digits_bounds _ T10).
    set (D := 10 ^ (- q)) in *. unfold SFdiv_core_binary. set (d1 := Zdigits2 N) in *. set (d2 := Zdigits2 D) in *. set (d := Zdigits2 z) in *.
    assert (L : d1 - d2 <= d).
    { assert (d1 - 1 < d + d2); [|lia]. apply (Z.pow_lt_mono_r_iff 2); [lia|lia|]. rewrite Z.pow_add_r by lia. nia. }
    assert (L' : d - 1 + (d2 - 1) < d1).
    { apply (Z.pow_lt_mono_r_iff 2); [lia|lia|]. rewrite Z.pow_add_r by lia. assert (0 < 2 ^ (d - 1)) by (apply Z.pow_pos_nonneg; lia). assert (0 < 2 ^ (d2 - 1)) by (apply Z.pow_pos_nonneg; lia). nia. }
    replace (d1 + 0 - (d2 + 0)) with (d1 - d2) by lia. replace (0 - 0) with 0 by lia.
    set (e := Z.min (fexp prec emax (d1 - d2)) 0).
    assert (Ee : e = Z.min (d1 - d2 - 53) 0). { unfold e, fexp, emin, prec, emax. lia. }
    assert (Em : match 0 - e with Zpos _ => Z.shiftl N (0 - e) | Z0 => N | Zneg _ => 0 end = N * 2 ^ (- e)).
    { destruct (0 - e) as [|x|x] eqn:X; [replace (- e) with 0 by lia; cbn; lia| |lia]. rewrite Z.shiftl_mul_pow2 by lia. f_equal. f_equal. lia. }
    rewrite Em. pose proof (Z.div_eucl_eq (N * 2 ^ (- e)) D ltac:(lia)) as Eq. pose proof (Z.mod_pos_bound (N * 2 ^ (- e)) D T10) as Mb. unfold Z.modulo in Mb.
    destruct (Z.div_eucl (N * 2 ^ (- e)) D) as [a r]. rewrite E in Eq.
    assert (r = 0 /\ a = z * 2 ^ (- e)) as [-> ->].
    { assert (D * (z * 2 ^ (- e) - a) = r) by lia. assert (z * 2 ^ (- e) - a = 0) by nia. nia. }
    replace (new_location D 0) with loc_Exact by (unfold new_location; destruct (Z.even D); reflexivity).
    rewrite <- (Z.opp_involutive e) at 2. rewrite round_exact; [|exact B|fold d; lia].
    destruct z; [lia|reflexivity|lia].
Qed.
