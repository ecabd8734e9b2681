(** Integers with an exponent. *)
From Coq Require Import List ZArith NArith Arith Bool Ascii String SpecFloat Lia.
From Verif Require Import Text TextProofs LlvmInt NumSpec ConstraintModel ConstraintParserModel ConstraintSpec ConstraintRoundTrip StepFunctionModel DoubleModel DoubleSpec DoubleProofs.
Import ListNotations.
Local Open Scope Z_scope.

(** ** Reading *)
Lemma lower_digits t : forallb is_digit t = true -> lower t = t.
Proof.
  induction t as [|c t IH]; [reflexivity|]. cbn [forallb]. intros H. apply andb_true_iff in H. destruct H as [D H]. unfold lower in *. cbn [map]. rewrite (IH H). f_equal.
  unfold to_lower, is_upper. unfold is_digit in D. apply andb_true_iff in D. destruct D as [A B]. apply Nat.leb_le in A, B. destruct (Nat.leb_spec 65 (code c)); [lia|reflexivity].
Qed.
Lemma digit_not_e c : is_digit c = true -> Ascii.eqb c "e" = false.
Proof. intros D. apply Ascii.eqb_neq. intros ->. discriminate D. Qed.
Lemma split_exponent a r : forallb is_digit a = true -> mantissa (a ++ "e"%char :: r) = a /\ exponent (a ++ "e"%char :: r) = r.
Proof.
  induction a as [|c a IH]; cbn [forallb app mantissa exponent]; [intros _; split; reflexivity|]. intros H. apply andb_true_iff in H. destruct H as [D H].
  rewrite (digit_not_e c D). destruct (IH H) as [-> ->]. split; reflexivity.
Qed.
Lemma exponent_exact b : forall acc, forallb is_digit b = true -> 0 <= acc -> Z.of_N (dec_value (Z.to_N acc) b) < 24000 -> exponent_digits acc b = Some (Z.of_N (dec_value (Z.to_N acc) b)).
Proof.
  assert (Grow : forall t n, (n <= dec_value n t)%N) by (induction t as [|c r IH]; intros n; cbn [dec_value]; [lia|specialize (IH (n * 10 + N.of_nat (code c - 48))%N); lia]).
  induction b as [|c b IH]; intros acc D A L; cbn [exponent_digits dec_value forallb] in *; [f_equal; lia|].
  apply andb_true_iff in D. destruct D as [Dc D]. rewrite Dc.
  replace (Z.to_N acc * 10 + N.of_nat (code c - 48))%N with (Z.to_N (acc * 10 + Z.of_nat (code c - 48))) in * by lia.
  pose proof (Grow b (Z.to_N (acc * 10 + Z.of_nat (code c - 48)))) as G.
  destruct (Z.leb_spec 24000 (acc * 10 + Z.of_nat (code c - 48))); [lia|]. apply IH; [exact D|lia|exact L].
Qed.
Lemma scientific_lower t n q : scientific t n q -> Z.abs q < 24000 -> exists a r, decimal a /\ lower t = a ++ "e"%char :: r /\ n = dec_value 0 a /\ read_exponent r = Some q /\
  existsb (fun c => Ascii.eqb c "e" || Ascii.eqb c "E") t = true.
Proof.
  assert (Lo : forall a e r, forallb is_digit a = true -> e = "e"%char \/ e = "E"%char -> lower (a ++ e :: r) = a ++ "e"%char :: lower r).
  { intros a e r D E. pose proof (lower_digits a D) as L. unfold lower in *. rewrite map_app, L. cbn [map]. destruct E as [-> | ->]; reflexivity. }
  assert (Ex : forall a e r, e = "e"%char \/ e = "E"%char -> existsb (fun c => Ascii.eqb c "e" || Ascii.eqb c "E") (a ++ e :: r) = true).
  { intros a e r E. rewrite existsb_app. apply orb_true_iff. right. cbn [existsb]. destruct E as [-> | ->]; reflexivity. }
  assert (Ed : forall b, forallb is_digit b = true -> Z.of_N (dec_value 0 b) < 24000 -> exponent_digits 0 b = Some (Z.of_N (dec_value 0 b))).
  { intros b D L. exact (exponent_exact b 0 D (Z.le_refl 0) L). }
  intros S L. destruct S as [a e b A E D|a e b A E D|a e b A E D].
  - exists a, b. split; [exact A|]. split; [rewrite (Lo a e b (proj2 A) E), (lower_digits b D); reflexivity|]. split; [reflexivity|]. split; [|apply Ex; exact E].
    specialize (Ed b D ltac:(lia)). unfold read_exponent. destruct b as [|c b]; [reflexivity|]. cbn [forallb] in D. apply andb_true_iff in D. destruct D as [Dc D].
    replace (Ascii.eqb c "-") with false by (symmetry; apply Ascii.eqb_neq; intros ->; discriminate Dc).
    replace (Ascii.eqb c "+") with false by (symmetry; apply Ascii.eqb_neq; intros ->; discriminate Dc). exact Ed.
  - exists a, ("+"%char :: b). split; [exact A|]. split; [rewrite (Lo a e _ (proj2 A) E); change (lower ("+"%char :: b)) with ("+"%char :: lower b); rewrite (lower_digits b D); reflexivity|].
    split; [reflexivity|]. split; [|apply Ex; exact E]. exact (Ed b D ltac:(lia)).
  - exists a, ("-"%char :: b). split; [exact A|]. split; [rewrite (Lo a e _ (proj2 A) E); change (lower ("-"%char :: b)) with ("-"%char :: lower b); rewrite (lower_digits b D); reflexivity|].
    split; [reflexivity|]. split; [|apply Ex; exact E]. unfold read_exponent. cbn [Ascii.eqb]. change (Ascii.eqb "-" "-") with true. cbv iota. rewrite (Ed b D ltac:(lia)). reflexivity.
Qed.

(** ** Exact integers *)
Lemma nearest_exact z : within z -> nearest (exact_double z) = Some z.
Proof.
  unfold within. intros S.
  assert (H : forall p s, Zpos p < 2 ^ 53 -> nearest (canon s (Zpos p)) = Some (if s then Zneg p else Zpos p)).
  { intros p s L. unfold canon, nearest. assert (B : 0 < Zpos p < 2 ^ 53) by lia. pose proof (digits_small _ B) as D. set (d := Zdigits2 (Zpos p)) in *.
    assert (Pw : 0 < 2 ^ (53 - d)) by (apply Z.pow_pos_nonneg; lia). rewrite Z2Pos.id by nia.
    destruct (Z.leb_spec 0 (d - 53)).
    - replace d with 53 by lia. cbn [Z.sub]. rewrite !Z.mul_1_r. destruct s; reflexivity.
    - replace (- (d - 53)) with (53 - d) by lia.
      assert (E : Z.div_eucl (Zpos p * 2 ^ (53 - d)) (2 ^ (53 - d)) = (Zpos p, 0)).
      { rewrite (surjective_pairing (Z.div_eucl _ _)). f_equal; [exact (Z.div_mul (Zpos p) (2 ^ (53 - d)) ltac:(lia))|exact (Z.mod_mul (Zpos p) (2 ^ (53 - d)) ltac:(lia))]. }
      rewrite E. replace (new_location (2 ^ (53 - d)) 0) with loc_Exact by (unfold new_location; destruct (Z.even _); reflexivity). destruct s; reflexivity. }
  destruct z as [|p|p]; cbn [exact_double]; [reflexivity| |]; rewrite H by lia; reflexivity.
Qed.
Lemma amounts_nonneg n q z : amounts n q z -> 0 <= z.
Proof.
  unfold amounts. destruct (Z.leb_spec 0 q) as [Q|Q]; intros E.
  - assert (0 < 10 ^ q) by (apply Z.pow_pos_nonneg; lia). nia.
  - assert (0 < 10 ^ (- q)) by (apply Z.pow_pos_nonneg; lia). nia.
Qed.
Theorem scientific_exact t n q z : scientific t n q -> Z.abs q < 24000 -> amounts n q z -> within z -> literal_value sci_double t = z.
Proof.
  intros Sc L A S. destruct (scientific_lower t n q Sc L) as (a & r & [Na Da] & Lo & En & R & Ex). unfold literal_value. rewrite Ex.
  assert (E : sci_double (lower t) = Some (print_Z z)).
  { unfold sci_double, get_as_double. rewrite Lo. destruct (split_exponent a r Da) as [-> ->]. rewrite Da, R, <- En. destruct a as [|c a]; [destruct (Na eq_refl)|]. cbn [negb andb].
    rewrite (decimal_exact n q z S A), (nearest_exact z S). reflexivity. }
  rewrite E. pose proof (amounts_nonneg _ _ _ A) as P. rewrite (print_Z_nonneg z P). rewrite clamped_dec.
  - rewrite print_N_value. unfold within in S. unfold int64_max. lia.
  - split; [apply print_N_nonempty|apply print_N_digits].
Qed.

(** ** Never negative *)
Definition unsigned (d : double) : Prop := match d with S754_finite s _ _ | S754_infinity s => s = false | _ => True end.
Lemma round_unsigned m e l : unsigned (binary_round_aux prec emax false m e l).
Proof.
  unfold binary_round_aux. destruct (shr_fexp _ _ m e l) as [r e']. destruct (shr_fexp _ _ _ e' loc_Exact) as [r' e'']. destruct (shr_m r'); try exact I.
  destruct (Zle_bool e'' (emax - prec)); reflexivity.
Qed.
Lemma decimal_unsigned n q : unsigned (of_decimal n q).
Proof.
  unfold of_decimal. destruct (Z.leb_spec 0 q) as [Q|Q].
  - assert (P : 0 <= Z.of_N n * 10 ^ q) by (apply Z.mul_nonneg_nonneg; [lia|apply Z.pow_nonneg; lia]). unfold of_int, binary_normalize.
    destruct (Z.of_N n * 10 ^ q); [exact I| |lia]. unfold binary_round. destruct (shl_align _ _ _). apply round_unsigned.
  - destruct n as [|p]; [exact I|]. destruct (SFdiv_core_binary _ _ _ _ _ _) as [[m e] l]. apply round_unsigned.
Qed.
Lemma nearest_unsigned d z : unsigned d -> nearest d = Some z -> 0 <= z.
Proof.
  destruct d as [s|s| |s m e]; cbn [unsigned nearest]; intros U E; [injection E as <-; lia|discriminate|discriminate|]. subst s. apply (f_equal (fun o => match o with Some x => x | None => 0 end)) in E. cbv beta iota in E. subst z.
  destruct (0 <=? e) eqn:L.
  - change (0 <= Zpos m * 2 ^ e). apply Z.mul_nonneg_nonneg; [lia|]. apply Z.pow_nonneg. lia.
  - apply Z.leb_gt in L. assert (Q : 0 < 2 ^ (- e)) by (apply Z.pow_pos_nonneg; lia). pose proof (Z.div_pos (Zpos m) (2 ^ (- e)) ltac:(lia) Q) as D. unfold Z.div in D.
    destruct (Z.div_eucl (Zpos m) (2 ^ (- e))) as [a r]. unfold round_nearest_even. destruct (new_location (2 ^ (- e)) r) as [|[]]; try lia. destruct (Z.even a); lia.
Qed.
Theorem sci_double_nonneg : sci_nonneg sci_double.
Proof.
  intros t d E _. unfold sci_double in E. destruct (get_as_double t) as [x|] eqn:G; [|discriminate].
  assert (U : unsigned x).
  { unfold get_as_double in G. destruct (_ && _); [|discriminate]. destruct (read_exponent _) as [q|]; [|discriminate]. injection G as <-. apply decimal_unsigned. }
  destruct (nearest x) as [z|] eqn:N.
  - injection E as <-. rewrite (print_Z_nonneg z (nearest_unsigned x z U N)). destruct (print_N_head (Z.to_N z)) as (c & r & -> & D). cbn [starts_with T list_ascii_of_string]. rewrite andb_true_r.
    apply Ascii.eqb_neq. intros <-. discriminate D.
  - injection E as <-. destruct x as [s|s| |s m e]; try discriminate; [cbn [unsigned] in U; subst s; reflexivity|reflexivity].
Qed.
