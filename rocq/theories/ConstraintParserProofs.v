(** Termination, safety, soundness and completeness of the constraint parser. *)
From Coq Require Import List Ascii String ZArith NArith Arith Bool Lia.
From Verif Require Import Text TextProofs LlvmInt ConstraintModel ConstraintSpec ConstraintParserModel.
Import ListNotations.

Scheme unary_mut := Induction for unary Sort Prop
with expr_mut := Induction for expr Sort Prop.
Combined Scheme unary_expr_ind from unary_mut, expr_mut.

(** ** Symbols of a token list *)

(** Symbol spelled by a token; [None] for blanks and stop tokens. *)
Definition tok_sym (sci : text -> option text) (t : token) : option sym :=
  match t with
  | TkId v => Some (SName (U v))
  | TkNum v => Some (SNum (parse_integer sci v))
  | TkNot => Some (SPre UNot)
  | TkNeg => Some (SPre UNeg)
  | TkLPar => Some SOpen
  | TkRPar => Some SClose
  | TkWs | TkEof | TkError _ => None
  | TkAnd => Some (SInf BAnd)
  | TkEqual => Some (SInf BEqual)
  | TkEquivalent => Some (SInf BEquivalence)
  | TkGreater => Some (SInf BGreater)
  | TkGreaterEqual => Some (SInf BGreaterEqual)
  | TkImplies => Some (SInf BImplies)
  | TkLess => Some (SInf BLess)
  | TkLessEqual => Some (SInf BLessEqual)
  | TkMinus => Some (SInf BSub)
  | TkNotEqual => Some (SInf BNotEqual)
  | TkOr => Some (SInf BOr)
  | TkPlus => Some (SInf BAdd)
  | TkStar => Some (SInf BMul)
  end.

Fixpoint syms (sci : text -> option text) (ts : list token) : list sym :=
  match ts with
  | [] => []
  | t :: r => match tok_sym sci t with Some s => s :: syms sci r | None => syms sci r end
  end.

Lemma syms_app sci a b : syms sci (a ++ b) = syms sci a ++ syms sci b.
Proof. induction a as [|t a IH]; simpl; auto. destruct (tok_sym sci t); simpl; congruence. Qed.

Definition nostop (ts : list token) : Prop := Forall (fun t => is_stop t = false) ts.

Lemma tok_binop_sym sci t o : tok_binop t = Some o -> tok_sym sci t = Some (SInf o).
Proof. destruct t; simpl; intro H; inversion H; auto. Qed.

Lemma tok_sym_binop sci t o : tok_sym sci t = Some (SInf o) -> tok_binop t = Some o.
Proof. destruct t; simpl; intro H; inversion H; auto. Qed.

Lemma tok_binop_prec t o : tok_binop t = Some o -> calc_prec t = level o.
Proof. destruct t; simpl; intro H; inversion H; auto. Qed.

Lemma tok_binop_stop t o : tok_binop t = Some o -> is_stop t = false.
Proof. destruct t; simpl; intro H; inversion H; auto. Qed.

Lemma level_bound o : 1 <= level o <= 8.
Proof. destruct o; simpl; lia. Qed.

(** One step of the operator branch of [parse_loop]. *)
Lemma parse_loop_op sci f nest prec l t ts o :
  tok_binop t = Some o ->
  parse_loop sci (S f) nest prec l (t :: ts) =
  (if prec <=? level o then PRes (Some l) (t :: ts)
   else match parse_binary sci f nest l (level o) (t :: ts) with
        | PRes (Some l') ts'' => parse_loop sci f nest prec l' ts''
        | r => r
        end).
Proof. destruct t; intro H; inversion H; reflexivity. Qed.

Lemma parse_binary_op sci f nest l prec t ts o :
  tok_binop t = Some o ->
  parse_binary sci (S f) nest l prec (t :: ts) =
  match parse_constraint sci f (nest + 1 + 1) prec ts with
  | PRes (Some r) ts'' => PRes (Some (CBin o l r)) ts''
  | r => r
  end.
Proof. destruct t; intro H; inversion H; reflexivity. Qed.

Lemma tok_cases t :
  t = TkWs \/ is_stop t = true \/ (exists v, t = TkId v) \/ (exists v, t = TkNum v) \/
  t = TkNot \/ t = TkNeg \/ t = TkLPar \/ t = TkRPar \/ (exists o, tok_binop t = Some o).
Proof.
  destruct t;
    repeat first [left; solve [reflexivity | eexists; reflexivity] | right];
    first [reflexivity | eexists; reflexivity].
Qed.

(** ** Fuel monotonicity *)

Lemma parse_mono sci f :
  (forall f' nest prec ts, f <= f' -> parse_constraint sci f nest prec ts <> PFuel ->
     parse_constraint sci f' nest prec ts = parse_constraint sci f nest prec ts) /\
  (forall f' nest prec l ts, f <= f' -> parse_loop sci f nest prec l ts <> PFuel ->
     parse_loop sci f' nest prec l ts = parse_loop sci f nest prec l ts) /\
  (forall f' nest l prec ts, f <= f' -> parse_binary sci f nest l prec ts <> PFuel ->
     parse_binary sci f' nest l prec ts = parse_binary sci f nest l prec ts) /\
  (forall f' nest ts, f <= f' -> parse_unary sci f nest ts <> PFuel ->
     parse_unary sci f' nest ts = parse_unary sci f nest ts).
Proof.
  induction f as [|f (IHc & IHl & IHb & IHu)].
  - repeat split; intros; simpl in *; congruence.
  - assert (G : forall f', S f <= f' -> exists g, f' = S g /\ f <= g)
      by (intros [|g] Hg; [lia|exists g; split; auto; lia]).
    repeat split; intros f' nest; intros; destruct (G f' ltac:(assumption)) as (g & -> & Hg);
      clear G; rename H0 into N.
    + cbn [parse_constraint] in *.
      destruct (parse_unary sci f nest ts) as [[l|] ts'| |] eqn:E; try congruence;
        rewrite (IHu g nest ts Hg) by congruence; rewrite E; auto.
    + destruct ts as [|t ts]; [reflexivity|].
      destruct (tok_cases t) as [->|[S|[[v ->]|[[v ->]|[->|[->|[->|[->|[o O]]]]]]]]];
        try reflexivity.
      * cbn [parse_loop] in *. apply IHl; auto.
      * destruct t; try discriminate; reflexivity.
      * rewrite (parse_loop_op sci f _ _ _ _ _ o O) in *.
        rewrite (parse_loop_op sci g _ _ _ _ _ o O).
        destruct (_ <=? _); auto.
        destruct (parse_binary sci f nest l (level o) (t :: ts)) as [[l'|] ts'| |] eqn:E;
          try congruence; rewrite (IHb g nest l (level o) (t :: ts) Hg) by congruence;
          rewrite E; auto.
    + destruct ts as [|t ts]; [reflexivity|].
      destruct (tok_cases t) as [->|[S|[[v ->]|[[v ->]|[->|[->|[->|[->|[o O]]]]]]]]];
        try reflexivity.
      * cbn [parse_binary] in *. apply IHb; auto.
      * destruct t; try discriminate; reflexivity.
      * rewrite (parse_binary_op sci f _ _ _ _ _ o O) in *.
        rewrite (parse_binary_op sci g _ _ _ _ _ o O).
        destruct (parse_constraint sci f (nest + 1 + 1) prec ts) as [[l'|] ts'| |] eqn:E;
          try congruence; rewrite (IHc g _ _ _ Hg) by congruence; rewrite E; auto.
    + destruct ts as [|t ts]; [reflexivity|].
      destruct t; try reflexivity; cbn [parse_unary] in *.
      * destruct (parse_constraint sci f (nest + 1) max_prec ts) as [r ts'| |] eqn:E;
          try congruence; rewrite (IHc g _ _ _ Hg) by congruence; rewrite E; auto.
      * destruct (parse_constraint sci f (nest + 1 + 1) min_prec ts) as [[l'|] ts'| |] eqn:E;
          try congruence; rewrite (IHc g _ _ _ Hg) by congruence; rewrite E; auto.
      * destruct (parse_constraint sci f (nest + 1 + 1) min_prec ts) as [[l'|] ts'| |] eqn:E;
          try congruence; rewrite (IHc g _ _ _ Hg) by congruence; rewrite E; auto.
      * apply IHu; auto.
Qed.

(** ** Termination and safety *)

(** The queue is a stop-free list followed by one stop token. *)
Definition stopped (ts : list token) : Prop :=
  exists b t, ts = b ++ [t] /\ nostop b /\ is_stop t = true.

Lemma stopped_nonempty ts : stopped ts -> ts <> [].
Proof. intros (b & t & -> & _). destruct b; discriminate. Qed.

Lemma stopped_tail t ts : stopped (t :: ts) -> is_stop t = false -> stopped ts.
Proof.
  intros (b & u & E & N & S) H. destruct b as [|x b]; simpl in E; inversion E; subst.
  - congruence.
  - inversion N; subst. exists b, u. auto.
Qed.

Definition fine (n : nat) (r : presult) : Prop :=
  match r with
  | PRes _ ts => stopped ts /\ List.length ts <= n
  | _ => False
  end.

(** A successful parse consumes at least one token. *)
Definition fine_consumed (n : nat) (r : presult) : Prop :=
  match r with
  | PRes (Some _) ts => stopped ts /\ List.length ts < n
  | PRes None ts => stopped ts /\ List.length ts <= n
  | _ => False
  end.

Lemma fine_consumed_fine n r : fine_consumed n r -> fine n r.
Proof. destruct r as [[c|] ts| |]; simpl; intuition lia. Qed.

Lemma parse_total sci n :
  (forall f nest prec ts, stopped ts -> List.length ts <= n -> 3 * n + 2 <= f ->
     fine_consumed (List.length ts) (parse_constraint sci f nest prec ts)) /\
  (forall f nest prec l ts, stopped ts -> List.length ts <= n -> 3 * n + 2 <= f ->
     fine (List.length ts) (parse_loop sci f nest prec l ts)) /\
  (forall f nest l prec ts, stopped ts -> List.length ts <= n -> 3 * n + 1 <= f ->
     fine_consumed (List.length ts) (parse_binary sci f nest l prec ts)) /\
  (forall f nest ts, stopped ts -> List.length ts <= n -> 3 * n + 1 <= f ->
     fine_consumed (List.length ts) (parse_unary sci f nest ts)).
Proof.
  induction n as [|n (IHc & IHl & IHb & IHu)].
  - assert (Z : forall ts, stopped ts -> List.length ts <= 0 -> False).
    { intros ts S L. apply stopped_nonempty in S. destruct ts; simpl in L; [congruence|lia]. }
    repeat split; intros; exfalso; eauto.
  - assert (U : forall f nest ts, stopped ts -> List.length ts <= S n -> 3 * S n + 1 <= f ->
       fine_consumed (List.length ts) (parse_unary sci f nest ts)).
    { intros f nest ts St L F. destruct f as [|f]; [lia|].
      destruct ts as [|t ts]; [apply stopped_nonempty in St; congruence|]. cbn [List.length] in *.
      destruct (is_stop t) eqn:Sp.
      { destruct t; try discriminate; cbn; auto. }
      pose proof (stopped_tail _ _ St Sp) as St'.
      destruct t; try (cbn; split; auto; lia); try discriminate; cbn [parse_unary].
      - specialize (IHc f (nest + 1) max_prec ts St' ltac:(lia) ltac:(lia)).
        apply fine_consumed_fine in IHc.
        destruct (parse_constraint sci f (nest + 1) max_prec ts) as [r ts'| |]; cbn in IHc; try tauto.
        destruct IHc as [S1 L1].
        destruct ts' as [|t' ts']; [apply stopped_nonempty in S1; congruence|].
        cbn [List.length] in L1.
        destruct (is_stop t') eqn:Sp'.
        { destruct t'; try discriminate; cbn; split; auto; lia. }
        pose proof (stopped_tail _ _ S1 Sp') as S2.
        destruct t'; try (cbn; split; auto; lia).
        destruct r; cbn; split; auto; lia.
      - specialize (IHc f (nest + 1 + 1) min_prec ts St' ltac:(lia) ltac:(lia)).
        destruct (parse_constraint sci f (nest + 1 + 1) min_prec ts) as [[r|] ts'| |]; cbn in IHc |- *;
          intuition lia.
      - specialize (IHc f (nest + 1 + 1) min_prec ts St' ltac:(lia) ltac:(lia)).
        destruct (parse_constraint sci f (nest + 1 + 1) min_prec ts) as [[r|] ts'| |]; cbn in IHc |- *;
          intuition lia.
      - specialize (IHu f nest ts St' ltac:(lia) ltac:(lia)).
        destruct (parse_unary sci f nest ts) as [[r|] ts'| |]; cbn in IHu |- *; intuition lia. }
    assert (B : forall f nest l prec ts, stopped ts -> List.length ts <= S n -> 3 * S n + 1 <= f ->
       fine_consumed (List.length ts) (parse_binary sci f nest l prec ts)).
    { intros f nest l prec ts St L F. destruct f as [|f]; [lia|].
      destruct ts as [|t ts]; [apply stopped_nonempty in St; congruence|]. cbn [List.length] in *.
      destruct (is_stop t) eqn:Sp.
      { destruct t; try discriminate; cbn; auto. }
      pose proof (stopped_tail _ _ St Sp) as St'.
      destruct (tok_cases t) as [->|[S|[[v ->]|[[v ->]|[->|[->|[->|[->|[o O]]]]]]]]];
        try congruence; try (cbn; split; auto; lia).
      - cbn [parse_binary]. specialize (IHb f nest l prec ts St' ltac:(lia) ltac:(lia)).
        destruct (parse_binary sci f nest l prec ts) as [[r|] ts'| |]; cbn in IHb |- *; intuition lia.
      - rewrite (parse_binary_op sci f _ _ _ _ _ o O).
        specialize (IHc f (nest + 1 + 1) prec ts St' ltac:(lia) ltac:(lia)).
        destruct (parse_constraint sci f (nest + 1 + 1) prec ts) as [[r|] ts'| |]; cbn in IHc |- *;
          intuition lia. }
    assert (Lp : forall f nest prec l ts, stopped ts -> List.length ts <= S n -> 3 * S n + 2 <= f ->
       fine (List.length ts) (parse_loop sci f nest prec l ts)).
    { intros f nest prec l ts St L F. destruct f as [|f]; [lia|].
      destruct ts as [|t ts]; [apply stopped_nonempty in St; congruence|]. cbn [List.length] in *.
      destruct (is_stop t) eqn:Sp.
      { destruct t; try discriminate; cbn; auto. }
      pose proof (stopped_tail _ _ St Sp) as St'.
      destruct (tok_cases t) as [->|[S|[[v ->]|[[v ->]|[->|[->|[->|[->|[o O]]]]]]]]];
        try congruence; try (cbn; split; auto; lia).
      - cbn [parse_loop]. specialize (IHl f nest prec l ts St' ltac:(lia) ltac:(lia)).
        destruct (parse_loop sci f nest prec l ts); cbn in IHl |- *; intuition lia.
      - cbn. destruct (nest =? 0); cbn; auto.
      - rewrite (parse_loop_op sci f _ _ _ _ _ o O).
        destruct (_ <=? _); [cbn; auto|].
        specialize (B f nest l (level o) (t :: ts) St ltac:(simpl; lia) ltac:(lia)).
        destruct (parse_binary sci f nest l (level o) (t :: ts)) as [[r|] ts'| |];
          cbn [fine_consumed List.length] in B; try tauto.
        + destruct B as [B1 B2].
          specialize (IHl f nest prec r ts' B1 ltac:(lia) ltac:(lia)).
          destruct (parse_loop sci f nest prec r ts'); cbn in IHl |- *; intuition lia.
        + cbn. auto. }
    repeat split; auto.
    intros f nest prec ts St L F. destruct f as [|f]; [lia|]. cbn [parse_constraint].
    specialize (U f nest ts St L ltac:(lia)).
    destruct (parse_unary sci f nest ts) as [[r|] ts'| |]; cbn in U; try tauto; [|exact U].
    destruct U as [U1 U2].
    specialize (IHl f nest prec r ts' U1 ltac:(lia) ltac:(lia)).
    destruct (parse_loop sci f nest prec r ts') as [[c|] ts''| |]; cbn in IHl |- *; intuition lia.
Qed.

(** ** Soundness *)

Lemma expr_mono p q w c : expr p w c -> p <= q -> expr q w c.
Proof.
  intros H L. destruct H as [p w c H|p o wl wr l r Ho Hl Hr].
  - apply e_unary; auto.
  - apply e_inf; auto. lia.
Qed.

(** First token that is not blank. *)
Fixpoint drop_ws (ts : list token) : list token :=
  match ts with
  | TkWs :: r => drop_ws r
  | _ => ts
  end.

(** The next operator, if any, binds no tighter than level [k - 1]. *)
Definition next_ge (k : nat) (ts : list token) : Prop :=
  match drop_ws ts with
  | t :: _ => forall o, tok_binop t = Some o -> k <= S (level o)
  | [] => True
  end.

Lemma next_ge_ws k ts : next_ge k (TkWs :: ts) <-> next_ge k ts.
Proof. reflexivity. Qed.

Lemma drop_ws_head ts : match drop_ws ts with TkWs :: _ => False | _ => True end.
Proof. induction ts as [|t ts IH]; simpl; auto. destruct t; auto. Qed.

Lemma drop_ws_idem ts : drop_ws (drop_ws ts) = drop_ws ts.
Proof. induction ts as [|t ts IH]; simpl; auto. destruct t; auto. Qed.

Lemma next_ge_mono j k ts : j <= k -> next_ge k ts -> next_ge j ts.
Proof.
  unfold next_ge. intros L H. destruct (drop_ws ts); auto. intros o Ho. specialize (H o Ho). lia.
Qed.

Lemma parse_sound sci f :
  (forall nest prec ts c ts', parse_constraint sci f nest prec ts = PRes (Some c) ts' ->
     exists b, ts = b ++ ts' /\ nostop b /\ expr prec (syms sci b) c /\ next_ge (S prec) ts') /\
  (forall nest prec l ts c ts' k w, parse_loop sci f nest prec l ts = PRes (Some c) ts' ->
     expr k w l -> k <= prec -> next_ge k ts ->
     exists b, ts = b ++ ts' /\ nostop b /\ expr prec (w ++ syms sci b) c /\ next_ge (S prec) ts') /\
  (forall nest l prec ts c ts', parse_binary sci f nest l prec ts = PRes (Some c) ts' ->
     exists o r b1 b2, ts = b1 ++ b2 ++ ts' /\ nostop b1 /\ nostop b2 /\ c = CBin o l r /\
       syms sci b1 = [SInf o] /\ expr prec (syms sci b2) r /\ next_ge (S prec) ts' /\
       (forall t x o', ts = t :: x -> tok_binop t = Some o' -> o = o')) /\
  (forall nest ts c ts', parse_unary sci f nest ts = PRes (Some c) ts' ->
     exists b, ts = b ++ ts' /\ nostop b /\ unary (syms sci b) c).
Proof.
  induction f as [|f (IHc & IHl & IHb & IHu)].
  - repeat split; intros; simpl in *; congruence.
  - repeat split.
    + intros nest prec ts c ts' H. cbn [parse_constraint] in H.
      destruct (parse_unary sci f nest ts) as [[l|] ts1| |] eqn:E; try congruence.
      destruct (IHu _ _ _ _ E) as (b1 & -> & N1 & U1).
      destruct (IHl _ _ _ _ _ _ 0 (syms sci b1) H) as (b2 & -> & N2 & X & G).
      * apply e_unary; auto.
      * lia.
      * red. destruct (drop_ws ts1); auto. intros; lia.
      * exists (b1 ++ b2). rewrite app_assoc, syms_app. repeat split; auto.
        apply Forall_app; auto.
    + intros nest prec l ts c ts' k w H W K G.
      destruct ts as [|t ts]; [discriminate|].
      destruct (tok_cases t) as [->|[S|[[v ->]|[[v ->]|[->|[->|[->|[->|[o O]]]]]]]]];
        try (cbn in H; discriminate).
      * cbn [parse_loop] in H.
        destruct (IHl _ _ _ _ _ _ k w H W K) as (b & -> & N & X & G'); auto.
        exists (TkWs :: b). simpl. repeat split; auto. constructor; auto.
      * destruct t; try discriminate; cbn in H; inversion H; subst.
        exists []. rewrite app_nil_r. simpl. repeat split; auto. constructor.
        eapply expr_mono; eauto. red; simpl. intros ? D; discriminate.
      * cbn in H. destruct (nest =? 0); inversion H; subst.
        exists []. rewrite app_nil_r. simpl. repeat split; auto. constructor.
        eapply expr_mono; eauto. red; simpl. intros ? D; discriminate.
      * rewrite (parse_loop_op sci f _ _ _ _ _ o O) in H.
        destruct (prec <=? level o) eqn:L.
        -- inversion H; subst. exists []. rewrite app_nil_r. simpl. repeat split; auto. constructor.
           eapply expr_mono; eauto. red. replace (drop_ws (t :: ts)) with (t :: ts) by (destruct t; auto; discriminate).
           intros o' O'. rewrite O in O'. inversion O'; subst. apply Nat.leb_le in L. lia.
        -- apply Nat.leb_gt in L.
           destruct (parse_binary sci f nest l (level o) (t :: ts)) as [[l'|] ts1| |] eqn:E; try discriminate.
           destruct (IHb _ _ _ _ _ _ E) as (o' & r & b1 & b2 & Ets & N1 & N2 & -> & S1 & X2 & G2 & Q).
           assert (o' = o) by (eapply Q; eauto). subst o'.
           assert (KL : k <= S (level o)).
           { red in G. replace (drop_ws (t :: ts)) with (t :: ts) in G by (destruct t; auto; discriminate).
             apply (G _ O). }
           destruct (IHl _ _ _ _ _ _ (S (level o)) (w ++ SInf o :: syms sci b2) H)
             as (b3 & E3 & N3 & X3 & G3); auto.
           ++ apply e_inf; auto. eapply expr_mono; eauto.
           ++ exists (b1 ++ b2 ++ b3). rewrite Ets, E3, <- !app_assoc. repeat split; auto.
              ** apply Forall_app; split; auto. apply Forall_app; auto.
              ** rewrite !syms_app, S1. rewrite <- app_assoc in X3. exact X3.
    + intros nest l prec ts c ts' H. destruct ts as [|t ts]; [discriminate|].
      destruct (tok_cases t) as [->|[S|[[v ->]|[[v ->]|[->|[->|[->|[->|[o O]]]]]]]]];
        try (cbn in H; discriminate).
      * cbn [parse_binary] in H. destruct (IHb _ _ _ _ _ _ H) as (o & r & b1 & b2 & -> & R).
        exists o, r, (TkWs :: b1), b2. simpl. destruct R as (N1 & N2 & -> & S1 & X & G & _).
        repeat split; auto. constructor; auto. intros ? ? ? E; inversion E; subst; discriminate.
      * destruct t; try discriminate.
      * rewrite (parse_binary_op sci f _ _ _ _ _ o O) in H.
        destruct (parse_constraint sci f (nest + 1 + 1) prec ts) as [[r|] ts1| |] eqn:E; try discriminate.
        inversion H; subst.
        destruct (IHc _ _ _ _ _ E) as (b & -> & N & X & G).
        exists o, r, [t], b. repeat split; auto.
        -- constructor; [|constructor]. eapply tok_binop_stop; eauto.
        -- simpl. rewrite (tok_binop_sym sci t o O). auto.
        -- intros ? ? ? E' O'. inversion E'; subst. congruence.
    + intros nest ts c ts' H. destruct ts as [|t ts]; [discriminate|].
      destruct t; try (cbn in H; discriminate); cbn [parse_unary] in H.
      * inversion H; subst. exists [TkId v]. split; [reflexivity|]. split; [repeat constructor|simpl; constructor].
      * destruct (parse_constraint sci f (nest + 1) max_prec ts) as [r ts1| |] eqn:E; try discriminate.
        destruct ts1 as [|t1 ts1]; [discriminate|]. destruct t1; try discriminate.
        destruct r as [c'|]; try discriminate. inversion H; subst.
        destruct (IHc _ _ _ _ _ E) as (b & -> & N & X & G).
        exists (TkLPar :: b ++ [TkRPar]). split; [simpl; rewrite <- app_assoc; auto|].
        split. { constructor; auto. apply Forall_app; split; auto. }
        simpl. rewrite syms_app. simpl. constructor. exact X.
      * destruct (parse_constraint sci f (nest + 1 + 1) min_prec ts) as [[r|] ts1| |] eqn:E; try discriminate.
        inversion H; subst. destruct (IHc _ _ _ _ _ E) as (b & -> & N & X & G).
        exists (TkNeg :: b). repeat split; auto. constructor; auto. simpl. constructor.
        inversion X as [? ? ? U|? o ? ? ? ? Lo]; subst; auto. unfold min_prec in *. lia.
      * destruct (parse_constraint sci f (nest + 1 + 1) min_prec ts) as [[r|] ts1| |] eqn:E; try discriminate.
        inversion H; subst. destruct (IHc _ _ _ _ _ E) as (b & -> & N & X & G).
        exists (TkNot :: b). repeat split; auto. constructor; auto. simpl. constructor.
        inversion X as [? ? ? U|? o ? ? ? ? Lo]; subst; auto. unfold min_prec in *. lia.
      * inversion H; subst. exists [TkNum v]. split; [reflexivity|]. split; [repeat constructor|simpl; constructor].
      * destruct (IHu _ _ _ _ H) as (b & -> & N & U).
        exists (TkWs :: b). repeat split; auto. constructor; auto.
Qed.

(** ** Completeness *)

Lemma syms_nil_ws sci b : nostop b -> syms sci b = [] -> Forall (fun t => t = TkWs) b.
Proof.
  induction b as [|t b IH]; intros N E; constructor; inversion N; subst.
  - destruct t; simpl in *; congruence.
  - apply IH; auto. simpl in E. destruct (tok_sym sci t); congruence.
Qed.

(** Splitting a token list along a split of its symbols; blanks go left. *)
Lemma syms_split sci b : forall w1 s w2, syms sci b = w1 ++ s :: w2 ->
  exists b1 t b2, b = b1 ++ t :: b2 /\ syms sci b1 = w1 /\ tok_sym sci t = Some s /\ syms sci b2 = w2.
Proof.
  induction b as [|t b IH]; intros w1 s w2 E; simpl in E.
  - destruct w1; discriminate.
  - destruct (tok_sym sci t) as [s'|] eqn:Et.
    + destruct w1 as [|x w1]; simpl in E; inversion E; subst.
      * exists [], t, b. auto.
      * destruct (IH w1 s w2) as (b1 & t' & b2 & -> & E1 & E2 & E3); auto.
        exists (t :: b1), t', b2. simpl. rewrite Et. subst. auto.
    + destruct (IH w1 s w2 E) as (b1 & t' & b2 & -> & E1 & E2 & E3).
      exists (t :: b1), t', b2. simpl. rewrite Et. subst. auto.
Qed.

Lemma nostop_app a b : nostop (a ++ b) <-> nostop a /\ nostop b.
Proof. apply Forall_app. Qed.

(** What may follow an expression of level [p] at nesting [nest]. *)
Definition follow (nest p : nat) (ts : list token) : Prop :=
  match drop_ws ts with
  | TkEof :: _ => True
  | TkRPar :: _ => 0 < nest
  | t :: _ => exists o, tok_binop t = Some o /\ p <= level o
  | [] => False
  end.

Lemma loop_ws sci f nest prec l ts :
  parse_loop sci f nest prec l (drop_ws ts) <> PFuel ->
  exists f', parse_loop sci f' nest prec l ts = parse_loop sci f nest prec l (drop_ws ts).
Proof.
  induction ts as [|t ts IH]; intro H; [exists f; auto|].
  destruct t; try (exists f; reflexivity). simpl drop_ws in *.
  destruct (IH H) as [f' E]. exists (S f'). exact E.
Qed.

Lemma loop_ws_prefix sci f nest prec l b ts r :
  Forall (fun t => t = TkWs) b -> parse_loop sci f nest prec l ts = r ->
  exists f', parse_loop sci f' nest prec l (b ++ ts) = r.
Proof.
  induction 1 as [|t b -> F IH]; intro H; [exists f; auto|].
  destruct (IH H) as [f' E]. exists (S f'). exact E.
Qed.

Lemma unary_ws_prefix sci f nest b ts r :
  Forall (fun t => t = TkWs) b -> parse_unary sci f nest ts = r ->
  exists f', parse_unary sci f' nest (b ++ ts) = r.
Proof.
  induction 1 as [|t b -> F IH]; intro H; [exists f; auto|].
  destruct (IH H) as [f' E]. exists (S f'). exact E.
Qed.

Lemma follow_stop sci nest p l ts :
  follow nest p ts -> parse_loop sci 1 nest p l (drop_ws ts) = PRes (Some l) (drop_ws ts).
Proof.
  unfold follow. pose proof (drop_ws_head ts) as W.
  destruct (drop_ws ts) as [|t r]; [tauto|]. intro H.
  destruct (tok_cases t) as [->|[S|[[v ->]|[[v ->]|[->|[->|[->|[->|[o O]]]]]]]]];
    try tauto; try (destruct H as (o & O & L); discriminate).
  - destruct t; try discriminate; [reflexivity|]. destruct H as (o & O & L); discriminate.
  - cbn. destruct nest; [lia|reflexivity].
  - rewrite (parse_loop_op sci 0 _ _ _ _ _ o O).
    assert (L : p <= level o).
    { destruct t; try discriminate; destruct H as (o' & O' & L); congruence. }
    rewrite (proj2 (Nat.leb_le _ _) L). reflexivity.
Qed.

Lemma follow_ws nest p b ts :
  Forall (fun t => t = TkWs) b -> (follow nest p (b ++ ts) <-> follow nest p ts).
Proof. induction 1 as [|t b -> F IH]; [tauto|exact IH]. Qed.

Lemma drop_ws_prefix b ts : Forall (fun t => t = TkWs) b -> drop_ws (b ++ ts) = drop_ws ts.
Proof. induction 1 as [|t b -> F IH]; auto. Qed.

Lemma follow_mono nest nest' p q ts : nest <= nest' -> q <= p -> follow nest p ts -> follow nest' q ts.
Proof.
  unfold follow. intros L1 L2. destruct (drop_ws ts) as [|t r]; auto.
  destruct t; auto; try lia; intros (o & O & L); exists o; split; auto; lia.
Qed.

Lemma tok_sym_num sci t n : tok_sym sci t = Some (SNum n) -> exists v, t = TkNum v /\ parse_integer sci v = n.
Proof. destruct t; simpl; intro H; inversion H; eauto. Qed.
Lemma tok_sym_name sci t s : tok_sym sci t = Some (SName s) -> exists v, t = TkId v /\ U v = s.
Proof. destruct t; simpl; intro H; inversion H; eauto. Qed.
Lemma tok_sym_pre sci t o : tok_sym sci t = Some (SPre o) -> t = match o with UNot => TkNot | UNeg => TkNeg end.
Proof. destruct t; simpl; intro H; inversion H; auto. Qed.
Lemma tok_sym_open sci t : tok_sym sci t = Some SOpen -> t = TkLPar.
Proof. destruct t; simpl; intro H; inversion H; auto. Qed.
Lemma tok_sym_close sci t : tok_sym sci t = Some SClose -> t = TkRPar.
Proof. destruct t; simpl; intro H; inversion H; auto. Qed.

Lemma mono_c sci f f' nest prec ts r :
  f <= f' -> parse_constraint sci f nest prec ts = r -> r <> PFuel ->
  parse_constraint sci f' nest prec ts = r.
Proof. intros L E N. rewrite <- E. apply parse_mono; auto. congruence. Qed.
Lemma mono_l sci f f' nest prec l ts r :
  f <= f' -> parse_loop sci f nest prec l ts = r -> r <> PFuel ->
  parse_loop sci f' nest prec l ts = r.
Proof. intros L E N. rewrite <- E. apply (proj1 (proj2 (parse_mono sci f))); auto. congruence. Qed.
Lemma mono_b sci f f' nest l prec ts r :
  f <= f' -> parse_binary sci f nest l prec ts = r -> r <> PFuel ->
  parse_binary sci f' nest l prec ts = r.
Proof. intros L E N. rewrite <- E. apply (proj1 (proj2 (proj2 (parse_mono sci f)))); auto. congruence. Qed.
Lemma mono_u sci f f' nest ts r :
  f <= f' -> parse_unary sci f nest ts = r -> r <> PFuel ->
  parse_unary sci f' nest ts = r.
Proof. intros L E N. rewrite <- E. apply (proj2 (proj2 (proj2 (parse_mono sci f)))); auto. congruence. Qed.

(** After an operand the loop goes on with it. *)
Lemma unary_then_loop sci fu fl nest P ts c ts' rest r :
  parse_unary sci fu nest ts = PRes (Some c) ts' -> drop_ws ts' = drop_ws rest ->
  parse_loop sci fl nest P c (drop_ws rest) = r -> r <> PFuel ->
  exists f, parse_constraint sci f nest P ts = r.
Proof.
  intros EU D EL N. rewrite <- D in EL.
  destruct (loop_ws sci fl nest P c ts') as [fl' EL']; [congruence|].
  exists (S (max fu fl')). cbn [parse_constraint].
  rewrite (mono_u sci fu (max fu fl') nest ts _ ltac:(lia) EU) by discriminate.
  eapply (mono_l sci fl'); [lia|congruence|auto].
Qed.

(** Completeness in continuation style: after the words of [c] the loop is
    resumed with [c]; [P] is the precedence of the running call. *)
Lemma parse_complete_cont sci :
  (forall w c, unary w c -> forall b nest rest, nostop b -> syms sci b = w -> follow nest 0 rest ->
     exists f rest', parse_unary sci f nest (b ++ rest) = PRes (Some c) rest' /\
        drop_ws rest' = drop_ws rest) /\
  (forall p w c, expr p w c -> forall b nest P rest f0 r, nostop b -> syms sci b = w -> p <= P ->
     follow nest (pred p) rest ->
     parse_loop sci f0 nest P c (drop_ws rest) = r -> r <> PFuel ->
     exists f, parse_constraint sci f nest P (b ++ rest) = r).
Proof.
  apply unary_expr_ind.
  - intros n b nest rest N E F.
    destruct (syms_split sci b [] (SNum n) [] E) as (b1 & t & b2 & -> & E1 & Et & E2).
    apply nostop_app in N as [N1 N2]. inversion N2 as [|? ? _ N3]; subst.
    apply tok_sym_num in Et as (v & -> & Ev).
    apply (syms_nil_ws sci b1 N1) in E1. apply (syms_nil_ws sci b2 N3) in E2.
    destruct (unary_ws_prefix sci 1 nest b1 ((TkNum v :: b2) ++ rest) _ E1 eq_refl) as [f EU].
    exists f, (b2 ++ rest). rewrite <- app_assoc. split; [|apply drop_ws_prefix; auto].
    rewrite EU. cbn. congruence.
  - intros s b nest rest N E F.
    destruct (syms_split sci b [] (SName s) [] E) as (b1 & t & b2 & -> & E1 & Et & E2).
    apply nostop_app in N as [N1 N2]. inversion N2 as [|? ? _ N3]; subst.
    apply tok_sym_name in Et as (v & -> & Ev).
    apply (syms_nil_ws sci b1 N1) in E1. apply (syms_nil_ws sci b2 N3) in E2.
    destruct (unary_ws_prefix sci 1 nest b1 ((TkId v :: b2) ++ rest) _ E1 eq_refl) as [f EU].
    exists f, (b2 ++ rest). rewrite <- app_assoc. split; [|apply drop_ws_prefix; auto].
    rewrite EU. cbn. congruence.
  - intros o w c H IH b nest rest N E F.
    destruct (syms_split sci b [] (SPre o) w E) as (b1 & t & b2 & -> & E1 & Et & E2).
    apply nostop_app in N as [N1 N2]. inversion N2 as [|? ? _ N3]; subst.
    apply tok_sym_pre in Et. apply (syms_nil_ws sci b1 N1) in E1.
    assert (F2 : follow (nest + 1 + 1) 0 rest) by (eapply follow_mono; [| |exact F]; lia).
    destruct (IH b2 (nest + 1 + 1) rest N3 eq_refl F2) as (f & rest' & EU & D).
    destruct (unary_then_loop sci f 1 (nest + 1 + 1) min_prec (b2 ++ rest) c rest' rest
                (PRes (Some c) (drop_ws rest)) EU D) as [f' EC]; [|discriminate|].
    { apply follow_stop. exact F2. }
    destruct (unary_ws_prefix sci (S f') nest b1 ((t :: b2) ++ rest) (PRes (Some (CUn o c)) (drop_ws rest)) E1)
      as [f2 E3].
    { subst t. destruct o; cbn [parse_unary app]; rewrite EC; reflexivity. }
    exists f2, (drop_ws rest). rewrite <- app_assoc. split; auto. apply drop_ws_idem.
  - intros w c H IH b nest rest N E F.
    destruct (syms_split sci b [] SOpen (w ++ [SClose]) E) as (b1 & t & b2 & -> & E1 & Et & E2).
    destruct (syms_split sci b2 w SClose [] E2) as (b3 & t2 & b4 & -> & E3 & Et2 & E4).
    apply nostop_app in N as [N1 N2]. inversion N2 as [|? ? _ N3]; subst.
    apply nostop_app in N3 as [N3 N4]. inversion N4 as [|? ? _ N5]; subst.
    apply tok_sym_open in Et. apply tok_sym_close in Et2. subst t t2.
    apply (syms_nil_ws sci b1 N1) in E1. apply (syms_nil_ws sci b4 N5) in E4.
    destruct (IH b3 (nest + 1) max_prec (TkRPar :: b4 ++ rest) 1
                (PRes (Some c) (TkRPar :: b4 ++ rest))) as [f EC]; auto.
    { cbn. lia. }
    { cbn. destruct (nest + 1 =? 0) eqn:Z; auto. apply Nat.eqb_eq in Z. lia. }
    { discriminate. }
    destruct (unary_ws_prefix sci (S f) nest b1 ((TkLPar :: b3 ++ TkRPar :: b4) ++ rest)
                (PRes (Some c) (b4 ++ rest)) E1) as [f2 E5].
    { cbn [parse_unary app]. rewrite <- app_assoc. cbn [app]. rewrite EC. reflexivity. }
    exists f2, (b4 ++ rest). rewrite <- app_assoc. split; auto. apply drop_ws_prefix; auto.
  - intros p w c H IH b nest P rest f0 r N E LP F EL NF.
    destruct (IH b nest rest N E) as (f & rest' & EU & D).
    { eapply follow_mono; [| |exact F]; lia. }
    eapply unary_then_loop; eauto.
  - intros p o wl wr l r Lo Hl IHl Hr IHr b nest P rest f0 res N E LP F EL NF.
    destruct (syms_split sci b wl (SInf o) wr E) as (b1 & t & b2 & -> & E1 & Et & E2).
    apply nostop_app in N as [N1 N2]. inversion N2 as [|? ? _ N3]; subst.
    apply tok_sym_binop in Et.
    assert (F2 : follow (nest + 1 + 1) (level o) rest) by (eapply follow_mono; [| |exact F]; lia).
    destruct (IHr b2 (nest + 1 + 1) (level o) rest 1 (PRes (Some r) (drop_ws rest))) as [fr ER]; auto.
    { eapply follow_mono; [| |exact F2]; lia. }
    { apply follow_stop; auto. }
    { discriminate. }
    assert (W : drop_ws (t :: b2 ++ rest) = t :: b2 ++ rest) by (destruct t; auto; discriminate).
    destruct (IHl b1 nest P (t :: b2 ++ rest) (S (max (S fr) f0))
                (parse_loop sci f0 nest P (CBin o l r) (drop_ws rest))) as [fl El]; auto.
    { lia. }
    { unfold follow. rewrite W. destruct t; try discriminate; exists o; split; auto; simpl; lia. }
    { rewrite W. rewrite (parse_loop_op sci _ _ _ _ _ _ o Et).
      rewrite (proj2 (Nat.leb_gt _ _)) by lia.
      rewrite (mono_b sci (S fr) _ nest l (level o) (t :: b2 ++ rest) (PRes (Some (CBin o l r)) (drop_ws rest)));
        [|lia| |discriminate].
      - apply (mono_l sci f0); [lia|auto|auto].
      - rewrite (parse_binary_op sci fr _ _ _ _ _ o Et). rewrite ER. reflexivity. }
    exists fl. rewrite <- app_assoc. exact El.
Qed.

(** ** The parser and the grammar *)

Lemma parse_tokens_total sci ts :
  stopped ts ->
  (exists c ts', parse_constraint sci (parse_fuel ts) 0 max_prec ts = PRes (Some c) ts' /\
                 parse_tokens sci ts = Parsed c) \/
  parse_tokens sci ts = Rejected.
Proof.
  intro S. pose proof (proj1 (parse_total sci (List.length ts)) (parse_fuel ts) 0 max_prec ts S
                         (le_n _) ltac:(unfold parse_fuel; lia)) as F.
  unfold parse_tokens. destruct (parse_constraint _ _ _ _ _) as [[c|] ts'| |]; cbn in F; try tauto; eauto.
Qed.

Lemma parse_loop_top sci f l ts c ts' :
  parse_loop sci f 0 max_prec l ts = PRes (Some c) ts' -> exists x, ts' = TkEof :: x.
Proof.
  revert l ts; induction f as [|f IH]; intros l ts H; [discriminate|].
  destruct ts as [|t ts]; [discriminate|].
  destruct (tok_cases t) as [->|[S|[[v ->]|[[v ->]|[->|[->|[->|[->|[o O]]]]]]]]];
    try (cbn in H; discriminate).
  - cbn [parse_loop] in H. eauto.
  - destruct t; try discriminate. inversion H; subst; eauto.
  - rewrite (parse_loop_op sci f _ _ _ _ _ o O) in H.
    destruct (max_prec <=? level o) eqn:L.
    + apply Nat.leb_le in L. pose proof (level_bound o). unfold max_prec in L. lia.
    + destruct (parse_binary _ _ _ _ _ _) as [[l'|] ts1| |]; try discriminate. eauto.
Qed.

Lemma nostop_stop_unique b t b' t' x :
  nostop b -> is_stop t = true -> nostop b' -> is_stop t' = true ->
  b ++ [t] = b' ++ t' :: x -> b = b' /\ t = t'.
Proof.
  intros N S N' S'. revert b' N'; induction N as [|a b Na N IH]; intros b' N' E.
  - destruct N' as [|a' b' Na' N']; simpl in E; inversion E; subst; auto.
    destruct b'; discriminate.
  - destruct N' as [|a' b' Na' N']; simpl in E; inversion E; subst; [congruence|].
    destruct (IH b' N' H1); subst; auto.
Qed.

(** Accepted exactly if the tokens before a final end marker spell a word. *)
Lemma parse_tokens_spec sci b t c :
  nostop b -> is_stop t = true ->
  (parse_tokens sci (b ++ [t]) = Parsed c <-> t = TkEof /\ spells (syms sci b) c).
Proof.
  intros N St. split.
  - intro H.
    assert (E : exists ts', parse_constraint sci (parse_fuel (b ++ [t])) 0 max_prec (b ++ [t]) = PRes (Some c) ts').
    { unfold parse_tokens in H. destruct (parse_constraint _ _ _ _ _) as [[c'|] ts'| |]; inversion H; subst; eauto. }
    destruct E as [ts' E].
    assert (Z : exists x, ts' = TkEof :: x).
    { unfold parse_fuel in E. rewrite Nat.add_comm in E. cbn [Nat.add parse_constraint] in E.
      destruct (parse_unary _ _ _ _) as [[l|] ts1| |]; try discriminate.
      eapply parse_loop_top; eauto. }
    destruct Z as [x ->].
    destruct (proj1 (parse_sound sci _) _ _ _ _ _ E) as (b' & Eb & N' & X & _).
    destruct (nostop_stop_unique b t b' TkEof x) as [-> ->]; auto.
  - intros [-> X].
    destruct (proj2 (parse_complete_cont sci) _ _ _ X b 0 max_prec [TkEof] 1 (PRes (Some c) [TkEof]))
      as [f E]; auto.
    { exact I. }
    { discriminate. }
    unfold parse_tokens.
    pose proof (proj1 (parse_total sci (List.length (b ++ [TkEof]))) (parse_fuel (b ++ [TkEof])) 0 max_prec
                  (b ++ [TkEof])) as F.
    assert (NF : parse_constraint sci (parse_fuel (b ++ [TkEof])) 0 max_prec (b ++ [TkEof]) <> PFuel).
    { intro Z. rewrite Z in F. apply F; [exists b, TkEof; auto|lia|unfold parse_fuel; lia]. }
    pose proof (mono_c sci _ (max f (parse_fuel (b ++ [TkEof]))) _ _ _ _ (Nat.le_max_l _ _) E ltac:(discriminate)) as M1.
    pose proof (mono_c sci _ (max f (parse_fuel (b ++ [TkEof]))) _ _ _ _ (Nat.le_max_r _ _) eq_refl NF) as M2.
    rewrite <- M2, M1. reflexivity.
Qed.
