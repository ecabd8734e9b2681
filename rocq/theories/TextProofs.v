(** Lemmas about texts and decimal printing. *)
From Coq Require Import List Ascii String ZArith NArith Arith Bool Lia ZifyBool ZifyN ZifyNat.
From Verif Require Import Text NumSpec.
Import ListNotations.

Lemma T_U t : T (U t) = t.
Proof. apply list_ascii_of_string_of_list_ascii. Qed.

Lemma U_T s : U (T s) = s.
Proof. apply string_of_list_ascii_of_string. Qed.

Lemma T_inj a b : T a = T b -> a = b.
Proof. intro H. rewrite <- (U_T a), <- (U_T b), H. reflexivity. Qed.

Lemma U_inj a b : U a = U b -> a = b.
Proof. intro H. rewrite <- (T_U a), <- (T_U b), H. reflexivity. Qed.

Lemma text_eqb_eq a b : text_eqb a b = true <-> a = b.
Proof.
  revert b; induction a as [|x a IH]; intros [|y b]; simpl; split; intro H;
    try reflexivity; try discriminate.
  - apply andb_true_iff in H as [H1 H2].
    apply Ascii.eqb_eq in H1. apply IH in H2. congruence.
  - inversion H; subst. apply andb_true_iff. split; [apply Ascii.eqb_refl|apply IH; auto].
Qed.

Lemma text_eqb_neq a b : text_eqb a b = false <-> a <> b.
Proof.
  rewrite <- text_eqb_eq. destruct (text_eqb a b); split; intro H; congruence.
Qed.

Lemma take_drop_while p t : take_while p t ++ drop_while p t = t.
Proof. induction t as [|c t IH]; simpl; auto. destruct (p c); simpl; congruence. Qed.

Lemma take_while_all p t : forallb p (take_while p t) = true.
Proof. induction t as [|c t IH]; simpl; auto. destruct (p c) eqn:E; simpl; rewrite ?E; auto. Qed.

Definition head_fails (p : ascii -> bool) (t : text) : Prop :=
  match t with [] => True | c :: _ => p c = false end.

Lemma drop_while_head p t : head_fails p (drop_while p t).
Proof. induction t as [|c t IH]; simpl; auto. destruct (p c) eqn:E; simpl; auto. Qed.

Lemma take_while_app p a b :
  forallb p a = true -> head_fails p b -> take_while p (a ++ b) = a.
Proof.
  induction a as [|c a IH]; simpl; intros Ha Hb.
  - destruct b as [|d b]; simpl in *; auto. rewrite Hb. auto.
  - apply andb_true_iff in Ha as [H1 H2]. rewrite H1. f_equal. auto.
Qed.

Lemma skipn_app_exact {A} (a b : list A) : skipn (List.length a) (a ++ b) = b.
Proof. induction a; simpl; auto. Qed.

Lemma skipn_take_while p t : skipn (List.length (take_while p t)) t = drop_while p t.
Proof.
  rewrite <- (take_drop_while p t) at 2. apply skipn_app_exact.
Qed.

Lemma starts_with_app p t : starts_with p (p ++ t) = true.
Proof. induction p; simpl; auto. rewrite Ascii.eqb_refl. auto. Qed.

Lemma starts_with_spec p t : starts_with p t = true <-> exists r, t = p ++ r.
Proof.
  split.
  - revert t; induction p as [|a p IH]; intros [|b t]; simpl; intro H; try discriminate; eauto.
    apply andb_true_iff in H as [H1 H2]. apply Ascii.eqb_eq in H1; subst.
    destruct (IH _ H2) as [r ->]. exists r; auto.
  - intros [r ->]. apply starts_with_app.
Qed.

(** ** Character facts *)

Lemma code_bound c : code c < 256.
Proof. apply nat_ascii_bounded. Qed.

Lemma code_inj a b : code a = code b -> a = b.
Proof.
  intro H. rewrite <- (ascii_nat_embedding a), <- (ascii_nat_embedding b).
  unfold code in H. congruence.
Qed.

Lemma eqb_code a b : Ascii.eqb a b = (code a =? code b).
Proof.
  destruct (Ascii.eqb a b) eqn:E.
  - apply Ascii.eqb_eq in E; subst. symmetry. apply Nat.eqb_refl.
  - symmetry. apply Nat.eqb_neq. intro H. apply code_inj in H. subst.
    rewrite Ascii.eqb_refl in E. discriminate.
Qed.

Lemma code_ascii_of_nat n : n < 256 -> code (ascii_of_nat n) = n.
Proof. apply nat_ascii_embedding. Qed.

Lemma is_digit_not_upper c : is_digit c = true -> is_upper c = false.
Proof. unfold is_digit, is_upper. lia. Qed.

Lemma to_lower_id c : is_upper c = false -> to_lower c = c.
Proof. unfold to_lower. intros ->. auto. Qed.

Lemma lower_digits t : forallb is_digit t = true -> lower t = t.
Proof.
  induction t as [|c t IH]; simpl; auto. intro H. apply andb_true_iff in H as [H1 H2].
  rewrite IH by auto. rewrite to_lower_id; auto. apply is_digit_not_upper; auto.
Qed.

(** ** Decimal printing *)

Lemma code_digit d : (d < 10)%N -> code (ascii_of_N (48 + d)) = N.to_nat (48 + d).
Proof.
  intro H. unfold code, nat_of_ascii. rewrite N_ascii_embedding by lia. reflexivity.
Qed.

Lemma digit_char_is_digit d : (d < 10)%N -> is_digit (ascii_of_N (48 + d)) = true.
Proof. intro H. unfold is_digit. rewrite code_digit by lia. lia. Qed.

Lemma digits_of_digits fuel n acc :
  forallb is_digit acc = true -> forallb is_digit (digits_of fuel n acc) = true.
Proof.
  revert n acc; induction fuel as [|f IH]; intros n acc H; simpl; auto.
  assert (D : forallb is_digit (ascii_of_N (48 + n mod 10) :: acc) = true).
  { cbn [forallb]. rewrite H, digit_char_is_digit; auto. apply N.mod_lt. lia. }
  destruct (n <? 10)%N; auto.
Qed.

Lemma log2_div10 n : (10 <= n)%N -> (N.log2 (n / 10) < N.log2 n)%N.
Proof.
  intro H. assert (n / 10 <= n / 2)%N.
  { apply N.div_le_lower_bound; [lia|].
    pose proof (N.mul_div_le n 10). lia. }
  assert (N.log2 (n / 10) <= N.log2 (n / 2))%N by (apply N.log2_le_mono; auto).
  assert (N.log2 (n / 2) = N.log2 n - 1)%N.
  { rewrite <- N.div2_div, N.div2_spec. apply N.log2_shiftr. }
  assert (1 <= N.log2 n)%N by (apply (N.log2_le_mono 2 n); lia). lia.
Qed.

Lemma digits_of_value fuel n acc v :
  (N.to_nat (N.log2 n) < fuel) ->
  dec_value v (digits_of fuel n acc) =
  dec_value (v * 10 ^ N.of_nat (List.length (digits_of fuel n acc) - List.length acc) + n) acc
  /\ List.length acc < List.length (digits_of fuel n acc).
Proof.
  revert n acc v; induction fuel as [|f IH]; intros n acc v H; [lia|].
  cbn [digits_of].
  pose proof (N.div_mod n 10 ltac:(lia)) as DM.
  pose proof (N.mod_lt n 10 ltac:(lia)) as ML.
  destruct (n <? 10)%N eqn:E.
  - cbn [dec_value List.length].
    rewrite code_digit by lia.
    replace (S (List.length acc) - List.length acc) with 1 by lia.
    split; [|lia]. f_equal. rewrite N.mod_small by lia. change (N.of_nat 1) with 1%N.
    rewrite N.pow_1_r. lia.
  - assert (L : N.to_nat (N.log2 (n / 10)) < f) by (pose proof (log2_div10 n); lia).
    destruct (IH (n / 10)%N (ascii_of_N (48 + n mod 10) :: acc) v L) as [IH1 IH2].
    rewrite IH1. cbn [dec_value List.length] in *. rewrite code_digit by lia.
    set (len := List.length (digits_of f (n / 10) (ascii_of_N (48 + n mod 10) :: acc))) in *.
    split; [|lia]. f_equal.
    replace (len - List.length acc) with (S (len - S (List.length acc))) by lia.
    rewrite Nat2N.inj_succ, N.pow_succ_r'.
    replace (N.of_nat (N.to_nat (48 + n mod 10) - 48)) with (n mod 10)%N by lia.
    rewrite DM at 2. lia.
Qed.

Lemma print_N_value n : dec_value 0 (print_N n) = n.
Proof.
  unfold print_N. destruct (digits_of_value (S (N.to_nat (N.log2 n))) n [] 0) as [H _]; [lia|].
  rewrite H. simpl. lia.
Qed.

Lemma print_N_digits n : forallb is_digit (print_N n) = true.
Proof. unfold print_N. apply digits_of_digits. reflexivity. Qed.

Lemma print_N_nonempty n : print_N n <> [].
Proof.
  intro H. destruct (digits_of_value (S (N.to_nat (N.log2 n))) n [] 0) as [_ H']; [lia|].
  unfold print_N in H. rewrite H in H'. simpl in H'. lia.
Qed.

Lemma print_Z_nonneg z : (0 <= z)%Z -> print_Z z = print_N (Z.to_N z).
Proof. destruct z; simpl; auto. lia. Qed.

Lemma print_N_inj a b : print_N a = print_N b -> a = b.
Proof. intro H. rewrite <- (print_N_value a), <- (print_N_value b), H. reflexivity. Qed.
