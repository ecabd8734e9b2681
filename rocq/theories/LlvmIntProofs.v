(** What [get_as_int64] computes. *)
From Coq Require Import List Ascii String ZArith NArith Arith Bool Lia ZifyBool ZifyN ZifyNat.
From Verif Require Import Text NumSpec TextProofs LlvmInt.
Import ListNotations.

Lemma char_val_spec : digit_val = char_val.
Proof. reflexivity. Qed.

Lemma radix_value_ge R acc t v : (1 <= R)%N -> radix_value R acc t = Some v -> (acc <= v)%N.
Proof.
  intro HR. revert acc; induction t as [|c t IH]; intros acc H; simpl in H.
  - inversion H; lia.
  - change (digit_val c) with (char_val c) in *; destruct (char_val c) as [d|]; [|discriminate].
    destruct (d <? R)%N eqn:E; [|discriminate]. apply IH in H. nia.
Qed.

Lemma step_overflow R acc d :
  (2 <= R <= 36)%N -> (d < R)%N -> (acc < two64)%N ->
  (((acc * R + d) mod two64) / R <? acc)%N = negb (acc * R + d <? two64)%N.
Proof.
  intros HR Hd Ha. unfold two64 in *.
  change (2 ^ 64)%N with 18446744073709551616%N in *.
  remember (acc * R + d)%N as x eqn:Hx.
  destruct (x <? 18446744073709551616)%N eqn:E.
  - rewrite N.mod_small by lia. simpl.
    apply N.ltb_ge. rewrite Hx, N.div_add_l by lia. apply N.le_add_r.
  - simpl. apply N.ltb_lt.
    pose proof (N.div_mod x 18446744073709551616 ltac:(lia)) as DM.
    assert (1 <= x / 18446744073709551616)%N by (apply N.ltb_ge in E; apply N.div_le_lower_bound; [discriminate|rewrite N.mul_1_r; exact E]).
    apply N.div_lt_upper_bound; [lia|].
    assert (x mod 18446744073709551616 + 18446744073709551616 <= x)%N by nia.
    nia.
Qed.

(** Exact result of the digit loop on a text of digits. *)
Lemma digit_loop_digits R acc t v :
  (2 <= R <= 36)%N -> (acc < two64)%N -> radix_value R acc t = Some v ->
  digit_loop R acc t = if (v <? two64)%N then Some (v, []) else None.
Proof.
  intros HR. revert acc; induction t as [|c t IH]; intros acc Ha H; cbn in H.
  - inversion H; subst. cbn [digit_loop]. replace (v <? two64)%N with true by lia. auto.
  - cbn [digit_loop]. change (digit_val c) with (char_val c) in *; destruct (char_val c) as [d|] eqn:C; [|discriminate].
    destruct (d <? R)%N eqn:E; [|discriminate].
    replace (R <=? d)%N with false by lia. cbv zeta.
    rewrite step_overflow by lia.
    destruct (acc * R + d <? two64)%N eqn:O; simpl.
    + rewrite N.mod_small by (unfold two64 in *; lia).
      apply IH; auto. lia.
    + apply radix_value_ge in H; [|lia].
      replace (v <? two64)%N with false by lia. auto.
Qed.

(** A loop that reads everything has read only digits. *)
Lemma digit_loop_all R acc t v :
  (2 <= R <= 36)%N -> (acc < two64)%N -> digit_loop R acc t = Some (v, []) ->
  radix_value R acc t = Some v /\ (v < two64)%N.
Proof.
  intros HR. revert acc; induction t as [|c t IH]; intros acc Ha H; cbn [digit_loop] in H.
  - inversion H; subst. cbn. auto.
  - cbn. change (digit_val c) with (char_val c) in *; destruct (char_val c) as [d|] eqn:C; [|discriminate].
    destruct (R <=? d)%N eqn:E; [discriminate|].
    cbv zeta in H. rewrite step_overflow in H by lia.
    replace (d <? R)%N with true by lia.
    destruct (acc * R + d <? two64)%N eqn:O; simpl in H; [|discriminate].
    rewrite N.mod_small in H by (unfold two64 in *; lia). apply IH in H; auto. lia.
Qed.

(** The digit loop either reads everything or leaves a suffix. *)
Lemma digit_loop_suffix R acc t v r :
  digit_loop R acc t = Some (v, r) -> exists p, t = p ++ r.
Proof.
  revert acc; induction t as [|c t IH]; intros acc H; cbn [digit_loop] in H.
  - inversion H; subst. exists []; auto.
  - change (digit_val c) with (char_val c) in *; destruct (char_val c) as [d|].
    + destruct (R <=? d)%N; [inversion H; subst; exists []; auto|].
      cbv zeta in H. destruct (_ <? _)%N; [discriminate|].
      apply IH in H as [p ->]. exists (c :: p); auto.
    + inversion H; subst. exists []; auto.
Qed.

Definition good_radix (R : N) : Prop := (2 <= R <= 36)%N.

(** Radix and digits seen by [consumeUnsignedInteger]. *)
Definition eff_radix (radix0 : N) (t : text) : N * text :=
  if (radix0 =? 0)%N then auto_radix t else (radix0, t).

Lemma auto_radix_good t : good_radix (fst (auto_radix t)).
Proof.
  unfold good_radix, auto_radix. destruct t as [|a t]; [simpl; lia|].
  repeat match goal with |- context [if ?b then _ else _] => destruct b end; simpl; try lia.
  destruct t; [simpl; lia|]. destruct (_ && _); simpl; lia.
Qed.

Lemma consume_unsigned_full radix0 t v :
  radix0 = 0%N \/ good_radix radix0 ->
  (consume_unsigned radix0 t = Some (v, []) <->
   let (R, ds) := eff_radix radix0 t in
   ds <> [] /\ radix_value R 0 ds = Some v /\ (v < two64)%N).
Proof.
  intros HR. unfold consume_unsigned. fold (eff_radix radix0 t).
  assert (G : good_radix (fst (eff_radix radix0 t))).
  { unfold eff_radix. destruct (radix0 =? 0)%N eqn:E; [apply auto_radix_good|].
    simpl. destruct HR; [subst; discriminate|auto]. }
  destruct (eff_radix radix0 t) as [R ds]. simpl in G. red in G.
  destruct ds as [|c ds]; [split; [discriminate|intros [H _]; congruence]|].
  split.
  - destruct (digit_loop R 0 (c :: ds)) as [[w rest]|] eqn:L; [|discriminate].
    destruct (_ =? _) eqn:E; [discriminate|]. intro H; inversion H; subst.
    apply digit_loop_all in L; [|lia|unfold two64; lia]. destruct L. repeat split; auto. discriminate.
  - intros (_ & H1 & H2). rewrite (digit_loop_digits R 0 _ v) by (auto; unfold two64; lia).
    replace (v <? two64)%N with true by lia. simpl. auto.
Qed.

Lemma to_signed_small v : (v < 2 ^ 63)%N -> to_signed v = Z.of_N v.
Proof. unfold to_signed. intro H. replace (v <? 2 ^ 63)%N with true by lia. auto. Qed.

Lemma to_signed_big v : (2 ^ 63 <= v)%N -> to_signed v = (Z.of_N v - 2 ^ 64)%Z.
Proof. unfold to_signed. intro H. replace (v <? 2 ^ 63)%N with false by lia. auto. Qed.

(** Exact characterisation of [getAsInteger] for a text without leading minus. *)
Lemma get_as_int64_pos radix0 t z :
  radix0 = 0%N \/ good_radix radix0 ->
  (forall r, t <> "-"%char :: r) ->
  (get_as_int64 radix0 t = Some z <->
   let (R, ds) := eff_radix radix0 t in
   ds <> [] /\ exists v, radix_value R 0 ds = Some v /\ z = Z.of_N v /\ (z <= int64_max)%Z).
Proof.
  intros HR Hm.
  pose proof (fun v => consume_unsigned_full radix0 t v HR) as HC.
  assert (E : get_as_int64 radix0 t =
    match consume_unsigned radix0 t with
    | Some (v, []) => if (to_signed v <? 0)%Z then None else Some (to_signed v)
    | _ => None end).
  { unfold get_as_int64.
    assert (X : consume_signed radix0 t =
       match consume_unsigned radix0 t with
       | None => None
       | Some (v, rest) => if (to_signed v <? 0)%Z then None else Some (to_signed v, rest) end).
    { unfold consume_signed. destruct t as [|c t]; auto.
      destruct c as [[] [] [] [] [] [] [] []]; try reflexivity.
      exfalso. eapply Hm. reflexivity. }
    rewrite X. destruct (consume_unsigned radix0 t) as [[v [|? ?]]|]; auto.
    - destruct (_ <? _)%Z; auto.
    - destruct (_ <? _)%Z; auto. }
  rewrite E. clear E Hm.
  destruct (eff_radix radix0 t) as [R ds].
  unfold int64_max. split.
  - destruct (consume_unsigned radix0 t) as [[v [|? ?]]|] eqn:C; try discriminate.
    destruct (HC v) as [HC' _]. destruct (HC' eq_refl) as (H1 & H2 & H3).
    destruct (to_signed v <? 0)%Z eqn:S; [discriminate|]. intro H; inversion H; subst z. clear H.
    split; auto. exists v. split; auto.
    unfold two64 in H3. unfold to_signed in *. destruct (v <? 2 ^ 63)%N eqn:B; lia.
  - intros (H1 & v & H2 & H3 & H4). destruct (HC v) as [_ HC'].
    rewrite HC' by (repeat split; auto; unfold two64; lia).
    rewrite to_signed_small by lia. replace (Z.of_N v <? 0)%Z with false by lia. congruence.
Qed.

(** ... and with a leading minus. *)
Lemma get_as_int64_neg radix0 t z :
  radix0 = 0%N \/ good_radix radix0 ->
  (get_as_int64 radix0 ("-"%char :: t) = Some z <->
   let (R, ds) := eff_radix radix0 t in
   ds <> [] /\ exists v, radix_value R 0 ds = Some v /\ z = (- Z.of_N v)%Z /\ (int64_min <= z)%Z).
Proof.
  intros HR. pose proof (fun v => consume_unsigned_full radix0 t v HR) as HC.
  unfold get_as_int64. cbn [consume_signed].
  destruct (eff_radix radix0 t) as [R ds]. unfold int64_min.
  assert (K : forall v, (v < two64)%N ->
     to_signed ((two64 - v) mod two64) =
     if (v =? 0)%N then 0%Z else if (v <=? 2 ^ 63)%N then (- Z.of_N v)%Z else (2 ^ 64 - Z.of_N v)%Z).
  { intros v Hv. unfold two64 in *. destruct (v =? 0)%N eqn:Z0.
    - assert (v = 0%N) by lia. subst. reflexivity.
    - rewrite N.mod_small by lia. unfold to_signed.
      destruct (v <=? 2 ^ 63)%N eqn:B.
      + replace (2 ^ 64 - v <? 2 ^ 63)%N with false by lia. lia.
      + replace (2 ^ 64 - v <? 2 ^ 63)%N with true by lia. lia. }
  split.
  - destruct (consume_unsigned radix0 t) as [[v rest]|] eqn:C; [|discriminate].
    destruct (0 <? to_signed _)%Z eqn:S; [discriminate|].
    destruct rest; [|discriminate]. intro H.
    assert (Hz : z = to_signed ((two64 - v) mod two64)) by congruence. subst z; clear H.
    destruct (HC v) as [HC' _]. destruct (HC' eq_refl) as (H1 & H2 & H3).
    split; auto. exists v. split; auto. rewrite K in * by auto.
    destruct (v =? 0)%N eqn:Z0; [split; lia|]. destruct (v <=? 2 ^ 63)%N eqn:B; [split; lia|].
    unfold two64 in H3. lia.
  - intros (H1 & v & H2 & H3 & H4). destruct (HC v) as [_ HC'].
    assert (B : (v < two64)%N) by (unfold two64; lia).
    rewrite HC' by auto. rewrite K by auto.
    destruct (v =? 0)%N eqn:Z0; [simpl; f_equal; lia|].
    replace (v <=? 2 ^ 63)%N with true by lia.
    replace (0 <? - Z.of_N v)%Z with false by lia. congruence.
Qed.

(** ** Decimal texts *)

Lemma char_val_digit c : is_digit c = true -> char_val c = Some (N.of_nat (code c - 48)).
Proof. unfold char_val. intros ->. auto. Qed.

Lemma radix_value_dec acc t :
  forallb is_digit t = true -> radix_value 10 acc t = Some (dec_value acc t).
Proof.
  revert acc; induction t as [|c t IH]; intros acc H; cbn in *; auto.
  apply andb_true_iff in H as [H1 H2]. change (digit_val c) with (char_val c); rewrite char_val_digit by auto.
  replace (N.of_nat (code c - 48) <? 10)%N with true; [auto|].
  unfold is_digit in H1. lia.
Qed.

Lemma radix10_all_digits acc t v : radix_value 10 acc t = Some v -> forallb is_digit t = true.
Proof.
  revert acc; induction t as [|c t IH]; intros acc H; cbn in *; auto.
  change (digit_val c) with (char_val c) in *; destruct (char_val c) as [d|] eqn:C; [|discriminate].
  destruct (d <? 10)%N eqn:E; [|discriminate]. apply IH in H. rewrite H, andb_true_r.
  unfold char_val in C. destruct (is_digit c); auto.
  destruct (is_lower c); [inversion C; subst; lia|].
  destruct (is_upper c); [inversion C; subst; lia|discriminate].
Qed.

Lemma digits_no_minus t : forallb is_digit t = true -> forall r, t <> "-"%char :: r.
Proof. intros H r ->. cbn in H. discriminate. Qed.

Lemma get_dec_digits t :
  forallb is_digit t = true -> t <> [] ->
  get_as_int64 10 t =
  if (Z.of_N (dec_value 0 t) <=? int64_max)%Z then Some (Z.of_N (dec_value 0 t)) else None.
Proof.
  intros H N. pose proof (get_as_int64_pos 10 t) as P. cbn in P.
  assert (G : 10%N = 0%N \/ good_radix 10) by (right; red; lia).
  specialize (fun z => P z G (digits_no_minus t H)).
  rewrite (radix_value_dec 0 t H) in P.
  destruct (_ <=? _)%Z eqn:E.
  - apply P. split; auto. eexists; split; [reflexivity|split; [reflexivity|apply Z.leb_le; exact E]].
  - destruct (get_as_int64 10 t) as [z|] eqn:G'; auto.
    destruct (proj1 (P z) eq_refl) as (_ & v & V & -> & L). inversion V; subst.
    apply Z.leb_gt in E. unfold int64_max in E. lia.
Qed.

Lemma get_dec_neg_digits t :
  forallb is_digit t = true -> t <> [] ->
  get_as_int64 10 ("-"%char :: t) =
  if (int64_min <=? - Z.of_N (dec_value 0 t))%Z then Some (- Z.of_N (dec_value 0 t))%Z else None.
Proof.
  intros H N. pose proof (get_as_int64_neg 10 t) as P. cbn in P.
  assert (G : 10%N = 0%N \/ good_radix 10) by (right; red; lia).
  specialize (fun z => P z G). rewrite (radix_value_dec 0 t H) in P.
  destruct (_ <=? _)%Z eqn:E.
  - apply P. split; auto. eexists; split; [reflexivity|split; [reflexivity|apply Z.leb_le; exact E]].
  - destruct (get_as_int64 10 ("-"%char :: t)) as [z|] eqn:G'; auto.
    destruct (proj1 (P z) eq_refl) as (_ & v & V & -> & L). inversion V; subst.
    apply Z.leb_gt in E. unfold int64_min in E. lia.
Qed.
