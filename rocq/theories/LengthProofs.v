(** Proofs about the lengths handed to libxml. *)
From Coq Require Import List ZArith Bool Ascii String Lia ZifyBool.
From Verif Require Import Text LengthModel LengthSpec DtdModel.
Import ListNotations.
Open Scope Z_scope.

Lemma size_pos : forall t, 0 <= size t.
Proof. intros t. unfold size. lia. Qed.
Lemma mod_small : forall n, 0 <= n < 2 ^ 32 -> n mod 2 ^ 32 = n.
Proof. intros n H. apply Z.mod_small. exact H. Qed.
Lemma mod_bounds : forall n, 0 <= n -> 0 <= n mod 2 ^ 32 < 2 ^ 32 /\ n mod 2 ^ 32 <= n.
Proof. intros n H. split; [apply Z.mod_pos_bound; lia | apply Z.mod_le; lia]. Qed.

Lemma firstn_size : forall n (t : text), 0 <= n <= size t -> size (firstn (Z.to_nat n) t) = n.
Proof. intros n t H. unfold size in *. rewrite firstn_length_le by lia. lia. Qed.

Lemma narrowed_value : forall b v n, narrowed b v = Some n -> n = Z.min v (2 ^ 31 - 1).
Proof.
  intros b v n H. unfold narrowed, int_max in H. destruct (Z.leb_spec v (2 ^ 31 - 1)).
  - injection H as <-. lia.
  - destruct b; [discriminate |]. apply (f_equal (fun o => match o with Some x => x | None => 0 end)) in H.
    rewrite <- H. lia.
Qed.
Lemma narrowed_none : forall b v, narrowed b v = None <-> b = Checked /\ 2 ^ 31 <= v.
Proof.
  intros b v. unfold narrowed, int_max. destruct (Z.leb_spec v (2 ^ 31 - 1)).
  - split; [discriminate | lia].
  - destruct b; split; try discriminate; try (intros [E _]; discriminate E).
    + intros _. split; [reflexivity | lia].
    + reflexivity.
Qed.

Lemma handed_size : forall b t u, handed b t = Some u ->
  (exists v, t = u ++ v) /\ size u = Z.min (size t mod 2 ^ 32) (2 ^ 31 - 1).
Proof.
  intros b t u H. unfold handed, as_unsigned in H. fold (size t) in H.
  destruct (mod_bounds (size t) (size_pos t)) as [B L].
  destruct (narrowed b (size t mod 2 ^ 32)) as [n|] eqn:N; [| discriminate].
  apply narrowed_value in N. injection H as <-.
  split; [exists (skipn (Z.to_nat n) t); symmetry; apply firstn_skipn |].
  rewrite firstn_size by lia. exact N.
Qed.

Lemma prefix_of_size : forall (u v t : text), t = u ++ v -> size u = size t -> u = t.
Proof.
  intros u v t -> H. unfold size in H. rewrite app_length in H.
  destruct v; [now rewrite app_nil_r | simpl in H; lia].
Qed.

Lemma handed_none : forall b t, handed b t = None <-> b = Checked /\ 2 ^ 31 <= size t mod 2 ^ 32.
Proof.
  intros b t. rewrite <- narrowed_none. unfold handed, as_unsigned. fold (size t).
  destruct (narrowed b (size t mod 2 ^ 32)); split; intros E; try discriminate E; reflexivity.
Qed.

Lemma handed_whole : forall b t, handed b t = Some t <-> size t < 2 ^ 31.
Proof.
  intros b t. split.
  - intros H. apply handed_size in H as [_ H]. lia.
  - intros H. pose proof (size_pos t).
    destruct (handed b t) as [u|] eqn:E.
    + apply handed_size in E as [[v P] S]. rewrite mod_small in S by lia.
      f_equal. apply (prefix_of_size u v t P). lia.
    + apply handed_none in E as [_ E]. rewrite mod_small in E by lia. lia.
Qed.

(** Documents with a tail of blanks. *)
Lemma repeat_size : forall c n, 0 <= n -> size (repeat c (Z.to_nat n)) = n.
Proof. intros c n H. unfold size. rewrite repeat_length. lia. Qed.
Lemma app_size : forall t u, size (t ++ u) = size t + size u.
Proof. intros t u. unfold size. rewrite app_length. lia. Qed.

Lemma handed_front : forall b t v, size t < 2 ^ 31 -> size v = 2 ^ 32 -> handed b (t ++ v) = Some t.
Proof.
  intros b t v H V. pose proof (size_pos t) as P.
  assert (M : size (t ++ v) mod 2 ^ 32 = size t).
  { rewrite app_size, V. replace (size t + 2 ^ 32) with (size t + 1 * 2 ^ 32) by lia.
    rewrite Z.mod_add by lia. apply mod_small. lia. }
  destruct (handed b (t ++ v)) as [u|] eqn:E.
  - apply handed_size in E as [[w W] S]. rewrite M in S.
    assert (L : List.length u = List.length t) by (unfold size in S, H; lia).
    apply (f_equal (firstn (List.length u))) in W.
    rewrite L in W at 1. rewrite !firstn_app, !firstn_all, L, !Nat.sub_diag in W. simpl in W.
    rewrite !app_nil_r in W. now f_equal.
  - apply handed_none in E as [_ E]. rewrite M in E. lia.
Qed.

Lemma any_front : forall t, size t < 2 ^ 31 ->
  exists v, (forall b, handed b (t ++ v) = Some t) /\ t ++ v <> t.
Proof.
  intros t H. exists (repeat " "%char (Z.to_nat (2 ^ 32))).
  assert (V : size (repeat " "%char (Z.to_nat (2 ^ 32))) = 2 ^ 32) by (apply repeat_size; lia).
  split.
  - intros b. apply handed_front; assumption.
  - intros E. apply (f_equal size) in E. rewrite app_size, V in E. lia.
Qed.

Lemma dtd_sizes : size xml_dtd < 2 ^ 31 /\ size sxfm_dtd < 2 ^ 31.
Proof. split; vm_compute; reflexivity. Qed.
Lemma dtds_handed : forall b, handed b xml_dtd = Some xml_dtd /\ handed b sxfm_dtd = Some sxfm_dtd.
Proof. intros b. split; apply handed_whole; apply dtd_sizes. Qed.

Lemma handed_exactly : forall b t u, handed b t = Some u <->
  (b = Unchecked \/ size t mod 2 ^ 32 < 2 ^ 31) /\ first_bytes (Z.min (size t mod 2 ^ 32) (2 ^ 31 - 1)) t u.
Proof.
  intros b t u. split.
  - intros H. split; [| apply handed_size in H as [P S]; split; assumption].
    destruct (Z.ltb_spec (size t mod 2 ^ 32) (2 ^ 31)) as [L|L]; [right; exact L |].
    destruct b; [| left; reflexivity].
    assert (N : handed Checked t = None) by (apply handed_none; split; [reflexivity | exact L]).
    rewrite N in H. discriminate H.
  - intros [A [S [v P]]]. destruct (handed b t) as [w|] eqn:E.
    + apply handed_size in E as [[v' P'] S'].
      assert (L : List.length u = List.length w) by (unfold size in S, S'; lia).
      f_equal. rewrite P in P'. apply (f_equal (firstn (List.length u))) in P'.
      rewrite L in P' at 2. rewrite !firstn_app, !firstn_all, !Nat.sub_diag in P'.
      rewrite !firstn_O, !app_nil_r in P'. symmetry. exact P'.
    + apply handed_none in E as [-> E]. destruct A as [A|A]; [discriminate A | lia].
Qed.

Lemma stops_exactly : forall b t, handed b t = None <-> b = Checked /\ 2 ^ 31 <= size t mod 2 ^ 32.
Proof. exact handed_none. Qed.

Lemma some_part : exists t u, handed Checked t = Some u /\ u <> t.
Proof.
  destruct (any_front (T "<vm/>")) as [v [H N]]; [vm_compute; reflexivity |].
  exists (T "<vm/>" ++ v), (T "<vm/>"). split; [apply H | intros E; apply N; symmetry; exact E].
Qed.

(** Two documents of 2 GiB and of 4 GiB and a bit. *)
Lemma stops_example : exists t, handed Checked t = None /\ exists u, handed Unchecked t = Some u /\ size u = 2 ^ 31 - 1.
Proof.
  exists (repeat " "%char (Z.to_nat (2 ^ 31))).
  assert (S : size (repeat " "%char (Z.to_nat (2 ^ 31))) = 2 ^ 31) by (apply repeat_size; lia).
  assert (M : size (repeat " "%char (Z.to_nat (2 ^ 31))) mod 2 ^ 32 = 2 ^ 31) by (rewrite S; reflexivity).
  split; [apply handed_none; split; [reflexivity | rewrite M; lia] |].
  destruct (handed Unchecked (repeat " "%char (Z.to_nat (2 ^ 31)))) as [u|] eqn:E.
  - exists u. split; [reflexivity |]. apply handed_size in E as [_ E]. rewrite M in E. rewrite E. reflexivity.
  - apply handed_none in E as [E _]. discriminate E.
Qed.
Lemma whole_example : size (T "<vm name=""n""/>") < 2 ^ 31.
Proof. vm_compute. reflexivity. Qed.
