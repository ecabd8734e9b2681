(** An operator precedence machine that decides the constraint grammar; used to
    prove that the grammar is unambiguous and that the builder implements it. *)
From Coq Require Import List String ZArith Arith Bool Lia.
From Verif Require Import ConstraintModel ConstraintSpec ConstraintParserProofs.
Import ListNotations.

Inductive frame := FUn (o : unop) | FBin (o : binop) (l : cexpr string) | FPar.

Inductive mstate := Hole (st : list frame) | Done (st : list frame) (t : cexpr string) | Err.

Fixpoint reduce (p : nat) (st : list frame) (t : cexpr string) : list frame * cexpr string :=
  match st with
  | FUn o :: r => reduce p r (CUn o t)
  | FBin o l :: r => if level o <=? p then reduce p r (CBin o l t) else (st, t)
  | _ => (st, t)
  end.

Definition mstep (s : mstate) (a : sym) : mstate :=
  match s, a with
  | Hole st, SNum n => Done st (CInt n)
  | Hole st, SName n => Done st (CFeat n)
  | Hole st, SPre o => Hole (FUn o :: st)
  | Hole st, SOpen => Hole (FPar :: st)
  | Done st t, SInf o => let (st', t') := reduce (level o) st t in Hole (FBin o t' :: st')
  | Done st t, SClose =>
      match reduce 8 st t with (FPar :: st', t') => Done st' t' | _ => Err end
  | _, _ => Err
  end.

Definition mrun (w : list sym) (s : mstate) : mstate := fold_left mstep w s.

Definition mresult (s : mstate) : option (cexpr string) :=
  match s with
  | Done st t => match reduce 8 st t with ([], t') => Some t' | _ => None end
  | _ => None
  end.

(** *** Every expression is recognised *)

Definition inner (p : nat) (f : frame) : Prop :=
  match f with FUn _ => True | FBin o _ => level o < p | FPar => False end.

Definition blocks (p : nat) (st : list frame) : Prop :=
  match st with
  | [] | FPar :: _ => True
  | FBin o _ :: _ => p <= level o
  | FUn _ :: _ => p = 0
  end.

Fixpoint zip (st : list frame) (t : cexpr string) : cexpr string :=
  match st with
  | FUn o :: r => zip r (CUn o t)
  | FBin o l :: r => zip r (CBin o l t)
  | _ => t
  end.

Lemma reduce_zip p st1 : forall st t, Forall (inner (S p)) st1 -> blocks (S p) st ->
  reduce p (st1 ++ st) t = (st, zip st1 t).
Proof.
  induction st1 as [|f st1 IH]; intros st t Hi Hb; simpl.
  - destruct st as [|[o|o l|] st]; simpl in *; auto.
    + lia.
    + destruct (level o <=? p) eqn:E; auto. apply Nat.leb_le in E. lia.
  - inversion Hi as [|? ? Hf Hi']; subst. destruct f as [o|o l|]; simpl in Hf.
    + apply IH; auto.
    + replace (level o <=? p) with true by (symmetry; apply Nat.leb_le; lia). apply IH; auto.
    + contradiction.
Qed.

Lemma zip_snoc st1 : forall o l t p, Forall (inner p) st1 ->
  zip (st1 ++ [FBin o l]) t = CBin o l (zip st1 t).
Proof.
  induction st1 as [|f st1 IH]; intros o l t p H; simpl; auto.
  inversion H as [|? ? Hf Hi']; subst. destruct f; simpl in Hf; eauto. contradiction.
Qed.

Lemma zip_snoc_un st1 : forall o t p, Forall (inner p) st1 ->
  zip (st1 ++ [FUn o]) t = CUn o (zip st1 t).
Proof.
  induction st1 as [|f st1 IH]; intros o t p H; simpl; auto.
  inversion H as [|? ? Hf Hi']; subst. destruct f; simpl in Hf; eauto. contradiction.
Qed.

Lemma inner_mono p q st : p <= q -> Forall (inner p) st -> Forall (inner q) st.
Proof.
  intros L. apply Forall_impl. intros [o|o l|]; simpl; auto. lia.
Qed.

Lemma blocks_mono p q st : p <= q -> blocks q st -> blocks p st.
Proof. destruct st as [|[o|o l|] st]; simpl; auto; lia. Qed.

Lemma level_le_8 o : level o <= 8.
Proof. destruct o; simpl; lia. Qed.

Lemma machine_complete :
  (forall w c, unary w c -> forall st, exists st1 t,
     mrun w (Hole st) = Done (st1 ++ st) t /\ Forall (inner 0) st1 /\ zip st1 t = c) /\
  (forall p w c, expr p w c -> forall st, blocks p st -> exists st1 t,
     mrun w (Hole st) = Done (st1 ++ st) t /\ Forall (inner p) st1 /\ zip st1 t = c).
Proof.
  apply unary_expr_ind.
  - intros n st. exists [], (CInt n). simpl. auto.
  - intros s st. exists [], (CFeat s). simpl. auto.
  - intros o w c _ IH st. destruct (IH (FUn o :: st)) as (st1 & t & E & Hi & Z).
    exists (st1 ++ [FUn o]), t. repeat split.
    + unfold mrun in *. simpl. rewrite E. rewrite <- app_assoc. reflexivity.
    + apply Forall_app. split; auto. constructor; simpl; auto.
    + rewrite (zip_snoc_un _ _ _ _ Hi), Z. reflexivity.
  - intros w c _ IH st. destruct (IH (FPar :: st) I) as (st1 & t & E & Hi & Z).
    exists [], c. repeat split; auto.
    unfold mrun in *. simpl. rewrite fold_left_app, E. simpl.
    rewrite (reduce_zip 8) by (simpl; auto). rewrite Z. reflexivity.
  - intros p w c _ IH st _. destruct (IH st) as (st1 & t & E & Hi & Z).
    exists st1, t. repeat split; auto. eapply inner_mono; [|exact Hi]. lia.
  - intros p o wl wr l r L _ IHl _ IHr st B.
    destruct (IHl st) as (st1 & t & E & Hi & Z); [eapply blocks_mono; [|exact B]; lia|].
    destruct (IHr (FBin o l :: st)) as (st2 & t2 & E2 & Hi2 & Z2); [simpl; lia|].
    exists (st2 ++ [FBin o l]), t2. repeat split.
    + unfold mrun in *. rewrite fold_left_app, E. simpl.
      rewrite reduce_zip; auto; [|eapply blocks_mono; [|exact B]; lia].
      rewrite Z, E2, <- app_assoc. reflexivity.
    + apply Forall_app. split; [eapply inner_mono; [|exact Hi2]; lia|].
      constructor; simpl; auto.
    + rewrite (zip_snoc _ _ _ _ _ Hi2), Z2. reflexivity.
Qed.

Lemma machine_accepts w c : spells w c -> mresult (mrun w (Hole [])) = Some c.
Proof.
  intros H. destruct (proj2 machine_complete _ _ _ H [] I) as (st1 & t & E & Hi & Z).
  rewrite E. simpl. rewrite reduce_zip by (simpl; auto). rewrite Z. reflexivity.
Qed.

(** *** Only expressions are recognised *)

Inductive stack_of : list frame -> list sym -> Prop :=
| so_nil : stack_of [] []
| so_un o st w : stack_of st w -> stack_of (FUn o :: st) (w ++ [SPre o])
| so_par st w : stack_of st w -> stack_of (FPar :: st) (w ++ [SOpen])
| so_bin o l st w wl : stack_of st w -> expr (S (level o)) wl l -> blocks (S (level o)) st ->
    stack_of (FBin o l :: st) (w ++ wl ++ [SInf o]).

Definition state_of (s : mstate) (w : list sym) : Prop :=
  match s with
  | Hole st => stack_of st w
  | Done st t => exists w1 w2, w = w1 ++ w2 /\ stack_of st w1 /\ unary w2 t
  | Err => True
  end.

Lemma expr_0 w c : expr 0 w c -> unary w c.
Proof. intros H. inversion H; subst; auto. lia. Qed.

Lemma expr_up p q w c : p <= q -> expr p w c -> expr q w c.
Proof. intros L H. inversion H; subst; [apply e_unary; auto|apply e_inf; auto; lia]. Qed.

Lemma reduce_sound p : p <= 8 -> forall st w1 q w2 t st' t',
  stack_of st w1 -> expr q w2 t -> blocks q st -> q <= S p -> reduce p st t = (st', t') ->
  exists w1' w2', w1 ++ w2 = w1' ++ w2' /\ stack_of st' w1' /\ expr (S p) w2' t' /\ blocks (S p) st'.
Proof.
  intros P. induction st as [|f st IH]; intros w1 q w2 t st' t' S E B Q R; simpl in R.
  - injection R as <- <-. exists w1, w2. repeat split; auto. eapply expr_up; eauto.
  - destruct f as [o|o l|].
    + simpl in B. subst q. inversion S as [|? ? w0 S0| |]; subst.
      destruct (IH w0 0 (SPre o :: w2) (CUn o t) st' t' S0) as (a & b & Ha & Hb & Hc & Hd); auto.
      * apply e_unary, u_pre, expr_0; auto.
      * destruct st as [|[]]; simpl; auto; lia.
      * exists a, b. rewrite <- Ha, <- app_assoc. auto.
    + simpl in B. destruct (level o <=? p) eqn:L.
      * apply Nat.leb_le in L. inversion S as [| | |? ? ? w0 wl S0 E0 B0]; subst.
        destruct (IH w0 (Datatypes.S (level o)) (wl ++ SInf o :: w2) (CBin o l t) st' t' S0)
          as (a & b & Ha & Hb & Hc & Hd); auto; try lia.
        -- apply e_inf; [lia|auto|eapply expr_up; eauto].
        -- exists a, b. rewrite <- Ha. rewrite <- !app_assoc. auto.
      * apply Nat.leb_gt in L. injection R as <- <-. exists w1, w2.
        split; [auto|]. split; [auto|]. split; [eapply expr_up; eauto|simpl; lia].
    + injection R as <- <-. exists w1, w2. repeat split; auto. eapply expr_up; eauto.
Qed.

Lemma reduce_unary p st w1 w2 t st' t' : p <= 8 ->
  stack_of st w1 -> unary w2 t -> reduce p st t = (st', t') ->
  exists w1' w2', w1 ++ w2 = w1' ++ w2' /\ stack_of st' w1' /\ expr (S p) w2' t' /\ blocks (S p) st'.
Proof.
  intros P HS U R. eapply (reduce_sound p P st w1 0); eauto.
  - apply e_unary; auto.
  - destruct st as [|[]]; simpl; auto; lia.
  - lia.
Qed.

Lemma mstep_sound s w a : state_of s w -> state_of (mstep s a) (w ++ [a]).
Proof.
  intros H. destruct s as [st|st t|]; destruct a; simpl; auto.
  - exists w, [SNum n]. repeat split; auto. constructor.
  - exists w, [SName s]. repeat split; auto. constructor.
  - constructor; auto.
  - constructor; auto.
  - destruct H as (w1 & w2 & -> & S & U). destruct (reduce (level o) st t) as [st' t'] eqn:R.
    destruct (reduce_unary _ _ _ _ _ _ _ (level_le_8 o) S U R) as (a & b & Ha & Hb & Hc & Hd).
    simpl. rewrite Ha, <- app_assoc. constructor; auto.
  - destruct H as (w1 & w2 & -> & S & U). destruct (reduce 8 st t) as [st' t'] eqn:R.
    destruct (reduce_unary _ _ _ _ _ _ _ (le_n 8) S U R) as (a & b & Ha & Hb & Hc & Hd).
    destruct st' as [|[]]; simpl; auto. inversion Hb; subst.
      exists w, (SOpen :: b ++ [SClose]). repeat split; auto.
      * rewrite Ha, <- !app_assoc. reflexivity.
      * apply u_par; auto.
Qed.

Lemma mrun_snoc w a s : mrun (w ++ [a]) s = mstep (mrun w s) a.
Proof. unfold mrun. rewrite fold_left_app. reflexivity. Qed.

Lemma machine_state w : state_of (mrun w (Hole [])) w.
Proof.
  induction w as [|a w IH] using rev_ind; [constructor|].
  rewrite mrun_snoc. apply mstep_sound; auto.
Qed.

Lemma machine_rejects w c : mresult (mrun w (Hole [])) = Some c -> spells w c.
Proof.
  intros H. pose proof (machine_state w) as S. destruct (mrun w (Hole [])) as [st|st t|]; try discriminate.
  destruct S as (w1 & w2 & -> & S & U). simpl in H.
  destruct (reduce 8 st t) as [st' t'] eqn:R.
  destruct (reduce_unary _ _ _ _ _ _ _ (le_n 8) S U R) as (a & b & Ha & Hb & Hc & Hd).
  destruct st'; try discriminate. injection H as <-. inversion Hb; subst.
    rewrite Ha. exact Hc.
Qed.

Lemma machine_spec w c : mresult (mrun w (Hole [])) = Some c <-> spells w c.
Proof. split; [apply machine_rejects|apply machine_accepts]. Qed.

(** The grammar is unambiguous. *)
Lemma spells_fun w c c' : spells w c -> spells w c' -> c = c'.
Proof. rewrite <- !machine_spec. congruence. Qed.
