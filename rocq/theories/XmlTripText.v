(** The texts of a written document. *)
From Coq Require Import List ZArith NArith Arith Bool Ascii String Lia ZifyBool ZifyNat ZifyN.
From Verif Require Import Text TextProofs NumSpec LlvmInt ConstraintModel ConstraintSpec ConstraintParserModel ConstraintLexerProofs ConstraintRoundTrip SourceRangeModel FeatureTreeModel SxfmModel XmlModel XmlWriterModel
  XmlSpec XmlTripSpec.
Import ListNotations.
Local Open Scope string_scope.
Local Open Scope list_scope.
Local Open Scope nat_scope.

(** ** Texts without blanks *)
Definition solid (t : text) : bool := forallb (fun c => negb (is_space c)) t.
Lemma drop_solid t : solid t = true -> drop_while is_space t = t.
Proof. destruct t as [|c t]; [reflexivity|]. cbn. destruct (is_space c); [discriminate|reflexivity]. Qed.
Lemma solid_app a b : solid (a ++ b) = solid a && solid b.
Proof. apply forallb_app. Qed.
Lemma solid_rev t : solid t = true -> solid (rev t) = true.
Proof. unfold solid. rewrite !forallb_forall. intros H c I. apply H. apply in_rev. exact I. Qed.
Lemma trim_solid t : solid t = true -> trim t = t.
Proof. intros H. unfold trim. rewrite (drop_solid t H), (drop_solid (rev t) (solid_rev t H)). apply rev_involutive. Qed.
Lemma solid_digits t : forallb is_digit t = true -> solid t = true.
Proof.
  unfold solid. rewrite !forallb_forall. intros H c I. specialize (H c I). unfold is_digit, is_space, code in *. 
  destruct c as [[] [] [] [] [] [] [] []]; vm_compute in H |- *; congruence.
Qed.
Lemma print_N_solid n : solid (print_N n) = true.
Proof. apply solid_digits, print_N_digits. Qed.
Lemma print_Z_solid z : solid (print_Z z) = true.
Proof. destruct z; cbn [print_Z]; [apply print_N_solid|apply print_N_solid|]. cbn [solid forallb]. rewrite andb_true_iff. split; [reflexivity|apply print_N_solid]. Qed.
Lemma print_Z_nonempty z : print_Z z <> [].
Proof. destruct z; cbn [print_Z]; [apply print_N_nonempty|apply print_N_nonempty|discriminate]. Qed.
Lemma blank_solid t : solid t = true -> t <> [] -> blank t = false.
Proof. destruct t as [|c t]; [congruence|]. cbn. intros H _. destruct (is_space c); [discriminate|reflexivity]. Qed.

(** ** Numbers *)
Lemma parse_integer_Z sci z : is_int64 z -> parse_integer sci (print_Z z) = z.
Proof.
  intros B. unfold is_int64, int64_min, int64_max in B. destruct z as [|p|p].
  - change (print_Z 0) with (print_N 0). apply (parse_integer_print sci 0). unfold int64_max. lia.
  - cbn [print_Z]. rewrite parse_integer_print; [rewrite Z2N.id; lia|]. unfold int64_max. rewrite Z2N.id; lia.
  - cbn [print_Z]. set (q := N.pos p) in *. unfold parse_integer. cbn [lower map]. fold (lower (print_N q)). rewrite lower_digits by apply print_N_digits.
    assert (contains_char "e" (to_lower "-" :: print_N q) = false) as ->.
    { unfold contains_char. cbn [existsb]. apply orb_false_iff. split; [reflexivity|]. destruct (existsb _ (print_N q)) eqn:E; [|reflexivity]. apply existsb_exists in E. destruct E as (c & I & E).
      apply Ascii.eqb_eq in E. subst c. pose proof (print_N_digits q) as D. rewrite forallb_forall in D. specialize (D _ I). discriminate D. }
    rewrite parse_plain_clamped. unfold clamped. rewrite print_N_digits, print_N_value. pose proof (print_N_nonempty q) as N. apply text_eqb_neq in N. rewrite N. cbv beta iota delta [andb negb]. unfold int64_min. subst q. lia.
Qed.

Lemma digits_value_eq t : forall a, forallb is_digit t = true -> digits_value (Z.of_N a) t = Z.of_N (dec_value a t).
Proof.
  induction t as [|c t IH]; intros a H; [reflexivity|]. cbn [digits_value dec_value forallb] in *. apply andb_true_iff in H. destruct H as (Hc & Ht). rewrite Hc.
  rewrite <- IH by exact Ht. f_equal. rewrite N2Z.inj_add, N2Z.inj_mul. rewrite nat_N_Z. lia.
Qed.
Lemma atoi_print n : (n < 2 ^ 31)%N -> exists z, atoi (print_N n) = Some z /\ to_unsigned z = n.
Proof.
  intros B. exists (Z.of_N n). assert (V : digits_value 0 (print_N n) = Z.of_N n).
  { change 0%Z with (Z.of_N 0). rewrite digits_value_eq by apply print_N_digits. rewrite print_N_value. reflexivity. }
  unfold atoi. rewrite drop_solid by apply print_N_solid. destruct (print_N_head n) as (c & q & E & D). rewrite E in *.
  destruct (Ascii.eqb c "-") eqn:C1; [apply Ascii.eqb_eq in C1; subst c; discriminate|]. destruct (Ascii.eqb c "+") eqn:C2; [apply Ascii.eqb_eq in C2; subst c; discriminate|].
  rewrite V. assert ((- 2 ^ 31 <=? Z.of_N n)%Z && (Z.of_N n <? 2 ^ 31)%Z = true) as -> by lia. split; [reflexivity|]. unfold to_unsigned. rewrite Z.mod_small by lia. apply N2Z.id.
Qed.

(** ** Lists of values *)
Lemma numerals_digits t : forall cur r, forallb is_digit t = true -> cur <> [] -> numerals false cur (t ++ r) = numerals false (cur ++ t) r.
Proof.
  induction t as [|c t IH]; intros cur r H N; [rewrite app_nil_r; reflexivity|]. cbn [app numerals forallb] in *. apply andb_true_iff in H. destruct H as (Hc & Ht). rewrite Hc.
  destruct cur as [|x cur]; [congruence|]. rewrite IH; [|exact Ht|discriminate]. rewrite <- app_assoc. reflexivity.
Qed.
Lemma numerals_Z z r : numerals false [] (print_Z z ++ r) = numerals false (print_Z z) r.
Proof.
  assert (P : forall n b r, numerals b [] (print_N n ++ r) = numerals false ((if b then ["-"%char] else []) ++ print_N n) r).
  { intros n b r0. destruct (print_N_head n) as (c & q & E & D). pose proof (print_N_digits n) as Ds. rewrite E in *. cbn [forallb] in Ds. apply andb_true_iff in Ds. cbn [app numerals]. rewrite D.
    rewrite numerals_digits; [|exact (proj2 Ds)|destruct b; discriminate]. destruct b; reflexivity. }
  destruct z as [|p|p]; cbn [print_Z]; [apply (P _ false)|apply (P _ false)|]. cbn [app numerals]. change (is_digit "-") with false. cbn [emit app]. exact (P _ true r).
Qed.
Lemma narrow_int32 z : as_int32 z (narrow z).
Proof.
  unfold as_int32, narrow. split; [pose proof (Z.mod_pos_bound (z + 2 ^ 31) (2 ^ 32) ltac:(lia)); lia|]. exists ((z + 2 ^ 31) / 2 ^ 32)%Z.
  pose proof (Z.div_mod (z + 2 ^ 31) (2 ^ 32) ltac:(lia)). lia.
Qed.
Lemma narrow_int64 z : is_int64 (narrow z).
Proof. destruct (narrow_int32 z) as (B & _). unfold is_int64, int64_min, int64_max. lia. Qed.
Lemma write_values_ok sci vs : vs <> [] -> Forall is_int64 vs -> exists t, write_values vs = Some t /\ solid t = true /\ t <> [] /\
  exists ws, map (parse_integer sci) (numerals false [] t) = ws /\ values_back vs ws.
Proof.
  induction vs as [|v vs IH]; intros N F; [congruence|]. inversion F as [|? ? Fv Fs]; subst. destruct vs as [|w vs].
  - exists (print_Z v). split; [reflexivity|]. split; [apply print_Z_solid|]. split; [apply print_Z_nonempty|]. exists [v]. split.
    + rewrite <- (app_nil_r (print_Z v)), numerals_Z. cbn [numerals]. pose proof (print_Z_nonempty v). unfold emit. destruct (print_Z v) eqn:E; [congruence|]. rewrite <- E. cbn [map]. rewrite parse_integer_Z by exact Fv. reflexivity.
    + exists [], [], v. auto.
  - destruct IH as (t & E & St & Nt & ws & Ew & (a & b & x & Ea & Eb & Fab)); [discriminate|exact Fs|]. exists (print_Z (narrow v) ++ T ";" ++ t). cbn [write_values] in *. rewrite E. cbn [bind]. split; [reflexivity|].
    split; [rewrite !solid_app, print_Z_solid, St; reflexivity|]. split; [pose proof (print_Z_nonempty (narrow v)); destruct (print_Z (narrow v)); [congruence|discriminate]|].
    exists (narrow v :: ws). split.
    + rewrite numerals_Z. change (T ";" ++ t) with (";"%char :: t). cbn [numerals]. change (is_digit ";") with false. change (Ascii.eqb ";" "-") with false. cbv iota. rewrite map_app, Ew.
      pose proof (print_Z_nonempty (narrow v)). unfold emit. destruct (print_Z (narrow v)) eqn:En; [congruence|]. rewrite <- En. cbn [map app]. rewrite parse_integer_Z by apply narrow_int64. reflexivity.
    + exists (v :: a), (narrow v :: b), x. rewrite Ea, Eb. split; [reflexivity|]. split; [reflexivity|]. constructor; [apply narrow_int32|exact Fab].
Qed.

(** ** Tidy texts *)
Lemma tidy_nonblank t : tidy t -> t <> [] -> blank t = false.
Proof.
  intros Tt N. destruct (blank t) eqn:B; [|reflexivity]. exfalso. apply N. rewrite <- Tt. unfold trim.
  assert (drop_while is_space t = []) as ->; [|reflexivity]. clear -B. induction t as [|c t IH]; [reflexivity|]. cbn in *. destruct (is_space c); [auto|discriminate].
Qed.
