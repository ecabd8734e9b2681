(** Iterating over a model whose features need not be a tree. *)
From Coq Require Import List Arith Bool Ascii String Permutation Sorted Lia.
From Verif Require Import Text TextProofs ConstraintModel ConstraintSpec SourceRangeModel FeatureTreeModel FeatureTreeSpec FeatureTreeProofs FeatureOrderProofs FeatureTransactionModel
  FeatureEditSpec FeatureEditProofs FeatureOpsProofs FeatureBuildSpec FeatureBuildProofs FeatureBuildFinal OutcomeSpec OutcomeProofs.
Import ListNotations.

Section Loop.
Variable ord : list nid -> list nid.
Hypothesis ord_ok : is_order ord.
Variables (h : heap) (m : fmodel) (I : list nid) (dat : nid -> feature) (par : nid -> option nid).
Hypothesis W : wired h m I dat par [].
Hypothesis DI : NoDup I.

Definition low (i : nid) : text := lower (f_name (dat i)).
Lemma cell i : In i I -> exists g e, h_cells h i = Some (Cell (NFeature g) (par i) e) /\ same_data (dat i) g /\ NoDup e /\ forall j, In j e <-> In j I /\ par j = Some i.
Proof.
  intros Ii. destruct (wi_cells _ _ _ _ _ _ W i Ii) as (g & e & C & S & F). exists g, e. destruct (F (fun x => x)) as [D E]. split; [|auto]. rewrite C. do 2 f_equal. destruct (par i); reflexivity.
Qed.
Lemma low_at i : In i I -> lower_at h i = Some (low i).
Proof. intros Ii. destruct (cell i Ii) as (g & e & C & (_ & N & _) & _). unfold lower_at, name_at, feature_at. rewrite C. cbn [bind n_data]. rewrite N. reflexivity. Qed.
Lemma small : List.length I <= h_next h.
Proof.
  rewrite <- (seq_length (h_next h) 0). apply NoDup_incl_length; [exact DI|]. intros i Ii. apply in_seq. destruct (cell i Ii) as (g & e & C & _).
  destruct (le_lt_dec (h_next h) i) as [L|L]; [|lia]. rewrite (wi_ok _ _ _ _ _ _ W i L) in C. discriminate.
Qed.
Lemma kids i : In i I -> exists cs, child_features ord h i = Some cs /\ NoDup cs /\ forall j, In j cs <-> In j I /\ par j = Some i.
Proof.
  intros Ii. destruct (cell i Ii) as (g & e & C & _ & De & Ee). exists (ord e).
  assert (A : forall l acc, NoDup (acc ++ l) -> incl l e -> fold_left (fun o e0 => let* a := o in let* ce := h_cells h e0 in
      if is_feature (n_data ce) then Some (set_insert e0 a) else children_impl (h_next h) is_feature h None e0 a) l (Some acc) = Some (acc ++ l)).
  { induction l as [|x l IH]; intros acc Dl Il; cbn [fold_left]; [rewrite app_nil_r; reflexivity|].
    assert (In x I) as Ix by (apply (Ee x); apply Il; left; reflexivity). destruct (cell x Ix) as (f & y & Cx & _).
    cbn [bind]. rewrite Cx. cbn [bind n_data is_feature]. rewrite set_insert_new.
    - rewrite IH; [rewrite <- app_assoc; reflexivity|rewrite <- app_assoc; exact Dl|intros z Z; apply Il; right; exact Z].
    - intros X. apply NoDup_remove_2 in Dl. apply Dl. apply in_or_app. left. exact X. }
  split; [|split].
  - unfold child_features, get_children. rewrite children_impl_S, C. cbn [bind n_edges]. rewrite A; [reflexivity|exact De|intros x X; exact X].
  - eapply Permutation_NoDup; [apply Permutation_sym; apply ord_ok|exact De].
  - intros j. rewrite <- Ee. split; apply Permutation_in; [|apply Permutation_sym]; apply ord_ok.
Qed.
Lemma sorted_kids cs : incl cs I -> exists s, fold_left (fun o c => let* l := o in ordered_insert (name_greater h) l c) cs (Some []) = Some s /\ Permutation s cs.
Proof.
  intros Ic. destruct (ordered_inserts_spec (name_greater h) (fun a b => text_ltb (low b) (low a)) (fun i => In i I)) with (vs := cs) (l := @nil nid) as (s & E & P & _).
  - intros x y Ix Iy. unfold name_greater. rewrite (low_at x Ix), (low_at y Iy). reflexivity.
  - intros x y _ _ K. apply text_ltb_false. left. apply text_ltb_spec. exact K.
  - intros x y z _ _ _ K. apply text_ltb_spec in K. destruct (text_lt_total (low y) (low x)) as [A|[A|A]].
    + left. apply text_ltb_spec. exact A.
    + right. apply text_ltb_spec. rewrite A. exact K.
    + right. apply text_ltb_spec. exact (text_lt_trans _ _ _ K A).
  - exact Ic.
  - intros x [].
  - constructor.
  - exists s. split; [exact E|]. exact P.
Qed.
Lemma push_all V l : forall s, (forall c, In c l -> ~ In c V) -> fold_left (fun s c => if mem c V then s else c :: s) l s = rev l ++ s.
Proof.
  induction l as [|c l IH]; intros s N; [reflexivity|]. cbn [fold_left rev]. destruct (mem c V) eqn:M; [apply mem_spec in M; exfalso; exact (N c (or_introl eq_refl) M)|].
  rewrite IH by (intros x X; apply N; right; exact X). rewrite <- app_assoc. reflexivity.
Qed.

(** Going up from a feature arrives at [r]. *)
Inductive under (r : nid) : nid -> Prop :=
| under_self : under r r
| under_step i p : In i I -> par i = Some p -> under r p -> under r i.

Variable r : nid.
Hypothesis Ir : In r I.

(** What holds during the iteration, which ends at features called like [stop]. *)
Record sweeping (stop : option text) (F V : list nid) : Prop := Sweeping {
  sw_nodup : NoDup (F ++ V);
  sw_in : incl (F ++ V) I;
  sw_from : forall x, In x (F ++ V) -> x = r \/ exists p, par x = Some p /\ In p V;
  sw_root : In r (F ++ V);
  sw_kids : forall j v, In j I -> par j = Some v -> In v V -> In j (F ++ V);
  sw_under : forall x, In x (F ++ V) -> under r x;
  sw_past : forall v t, In v V -> stop = Some t -> low v <> t;
  sw_stop : forall q, par r = Some q -> stop = Some (low q)
}.

Lemma sweep_step stop f F V : sweeping stop (f :: F) V -> (forall t, stop = Some t -> low f <> t) ->
  exists F', dfs_next ord h (Dfs (f :: F) V) = Some (Dfs F' (V ++ [f])) /\ sweeping stop F' (V ++ [f]).
Proof.
  intros [D Inn Fr Ro Ki Un Pa St] Nf. pose proof D as D0. cbn [app] in D. apply NoDup_cons_iff in D. destruct D as [Nfv D].
  assert (If : In f I) by (apply Inn; left; reflexivity).
  destruct (kids f If) as (cs & Ec & Dc & Cc). destruct (sorted_kids cs) as (s & Es & Ps); [intros x X; apply Cc in X; tauto|].
  assert (Ds : NoDup s) by (eapply Permutation_NoDup; [apply Permutation_sym; exact Ps|exact Dc]).
  assert (Cs : forall j, In j s <-> In j I /\ par j = Some f) by (intros j; rewrite <- Cc; split; apply Permutation_in; [|apply Permutation_sym]; exact Ps).
  assert (NfV : ~ In f V) by (intros X; apply Nfv; apply in_or_app; right; exact X).
  assert (New : forall c, In c s -> ~ In c ((f :: F) ++ V)).
  { intros c X Y. apply Cs in X. destruct X as [Ic Pc]. destruct (Fr c Y) as [->|(p & Pp & Vp)].
    - exact (Nf _ (St f Pc) eq_refl).
    - rewrite Pc in Pp. injection Pp as <-. contradiction. }
  exists (rev s ++ F). split.
  { unfold dfs_next. cbn [d_frontier d_visited]. rewrite (set_insert_new f V NfV), Ec. cbn [bind]. rewrite Es. cbn [bind]. rewrite push_all; [reflexivity|].
    intros c X Y. apply (New c X). apply in_app_iff in Y. destruct Y as [Y|[<-|[]]]; [apply in_or_app; right; exact Y|left; reflexivity]. }
  assert (Mem : forall x, In x ((rev s ++ F) ++ V ++ [f]) <-> In x s \/ In x ((f :: F) ++ V)).
  { intros x. cbn [app]. rewrite !in_app_iff, <- in_rev. cbn [In]. rewrite in_app_iff. intuition. }
  constructor.
  - assert (Permutation ((rev s ++ F) ++ V ++ [f]) (s ++ (f :: F) ++ V)) as P.
    { rewrite <- app_assoc. apply Permutation_app; [apply Permutation_sym, Permutation_rev|]. cbn [app]. rewrite app_assoc. apply Permutation_sym. apply Permutation_cons_append. }
    eapply Permutation_NoDup; [apply Permutation_sym; exact P|]. clear - Ds D0 New. induction s as [|c s IH]; [exact D0|]. cbn [app]. apply NoDup_cons_iff in Ds. destruct Ds as [N Ds]. constructor.
    + intros X. apply in_app_iff in X. destruct X as [X|X]; [contradiction|]. exact (New c (or_introl eq_refl) X).
    + apply IH; [exact Ds|]. intros x X. apply New. right. exact X.
  - intros x X. apply Mem in X. destruct X as [X|X]; [apply Cs in X; tauto|apply Inn; exact X].
  - intros x X. apply Mem in X. destruct X as [X|X].
    + right. exists f. split; [apply Cs; exact X|apply in_or_app; right; left; reflexivity].
    + destruct (Fr x X) as [->|(p & Pp & Vp)]; [left; reflexivity|right; exists p; split; [exact Pp|apply in_or_app; left; exact Vp]].
  - apply Mem. right. exact Ro.
  - intros j v Ij Pj Vv. apply Mem. apply in_app_iff in Vv. destruct Vv as [Vv|[<-|[]]]; [right; exact (Ki j v Ij Pj Vv)|left; apply Cs; auto].
  - intros x X. apply Mem in X. destruct X as [X|X]; [|exact (Un x X)]. apply Cs in X. destruct X as [Ix Px]. eapply under_step; [exact Ix|exact Px|]. apply Un. left. reflexivity.
  - intros v t Vv Et. apply in_app_iff in Vv. destruct Vv as [Vv|[<-|[]]]; [exact (Pa v t Vv Et)|exact (Nf t Et)].
  - exact St.
Qed.

Lemma sweep q : par r = q -> forall k F V, sweeping (option_map low q) F V -> List.length I < k + List.length V ->
  (exists out, dfs_loop ord k h (Dfs F V) (dfs_start q) = Some out /\ NoDup out /\ (forall x, In x out -> In x I /\ ~ In x V) /\
     (forall t, option_map low q = Some t -> exists x, under r x /\ low x = t)) \/
  (dfs_loop ord k h (Dfs F V) (dfs_start q) = None /\ exists p, q = Some p /\ forall x, under r x -> low x <> low p).
Proof.
  intros Pr. induction k as [|k IH]; intros F V S L.
  - exfalso. assert (List.length V <= List.length I); [|cbn in L; lia]. apply NoDup_incl_length.
    + pose proof (sw_nodup _ _ _ S) as D. clear - D. induction F; [exact D|]. apply IHF. inversion D; assumption.
    + intros x X. apply (sw_in _ _ _ S). apply in_or_app. right. exact X.
  - cbn [dfs_loop]. assert (forall p, q = Some p -> In p I) as Iq by (intros p ->; exact (proj1 (wi_par _ _ _ _ _ _ W r p Ir Pr))).
    destruct F as [|f F].
    + destruct q as [p|]; cbn [dfs_equal dfs_start d_frontier bind].
      * right. split; [reflexivity|]. exists p. split; [reflexivity|]. intros x Ux. assert (In x V) as Vx.
        { induction Ux as [|i j Ii Pj _ IHu]; [exact (sw_root _ _ _ S)|exact (sw_kids _ _ _ S i j Ii Pj IHu)]. }
        exact (sw_past _ _ _ S x _ Vx eq_refl).
      * left. exists []. split; [reflexivity|]. split; [constructor|]. split; [intros x []|discriminate].
    + assert (If : In f I) by (apply (sw_in _ _ _ S); left; reflexivity).
      assert (Stop : forall b, dfs_equal h (Dfs (f :: F) V) (dfs_start q) = Some b -> b = true -> exists p, q = Some p /\ low f = low p).
      { intros b E ->. destruct q as [p|]; cbn [dfs_equal dfs_start d_frontier] in E; [|discriminate]. rewrite (low_at f If), (low_at p (Iq p eq_refl)) in E. cbn [bind] in E. injection E as E. apply text_eqb_eq in E. eauto. }
      assert (Go : (exists b, dfs_equal h (Dfs (f :: F) V) (dfs_start q) = Some b /\ (b = false -> forall t, option_map low q = Some t -> low f <> t))).
      { destruct q as [p|]; cbn [dfs_equal dfs_start d_frontier]; [|exists false; split; [reflexivity|discriminate]]. rewrite (low_at f If), (low_at p (Iq p eq_refl)). cbn [bind]. eexists. split; [reflexivity|].
        intros E t T0 X. cbn in T0. injection T0 as <-. rewrite X in E. assert (text_eqb (low p) (low p) = true) by (apply text_eqb_eq; reflexivity). congruence. }
      destruct Go as ([|] & E & Nf); rewrite E; cbn [bind].
      * left. exists []. split; [reflexivity|]. split; [constructor|]. split; [intros x []|]. intros t T0. destruct (Stop true E eq_refl) as (p & -> & Lp). cbn in T0. injection T0 as <-.
        exists f. split; [apply (sw_under _ _ _ S); left; reflexivity|exact Lp].
      * destruct (sweep_step _ f F V S (Nf eq_refl)) as (F' & En & S'). rewrite En. cbn [bind].
        destruct (IH F' (V ++ [f]) S') as [(out & Eo & Do & Mo & So)|(Eo & X)].
        -- rewrite app_length. cbn [List.length]. lia.
        -- left. exists (f :: out). rewrite Eo. split; [reflexivity|]. split; [constructor; [|exact Do]|split; [|exact So]].
           ++ intros X. apply Mo in X. destruct X as [_ X]. apply X. apply in_or_app. right. left. reflexivity.
           ++ intros x [<-|X].
              ** split; [exact If|]. intros Y. pose proof (sw_nodup _ _ _ S) as D. apply NoDup_cons_iff in D. destruct D as [D _]. apply D. apply in_or_app. right. exact Y.
              ** apply Mo in X. destruct X as [X Y]. split; [exact X|]. intros Z. apply Y. apply in_or_app. left. exact Z.
        -- right. rewrite Eo. split; [reflexivity|exact X].
Qed.

(** The iteration over a model is defined exactly if the root is below nothing, or some
    feature below the root is called like its parent. *)
Lemma iterate_any : m_root m = Some r ->
  (exists out, iterate ord (S (h_next h)) h (m_root m) = Some out /\ NoDup out /\ incl out I /\ (forall q, par r = Some q -> exists x, under r x /\ low x = low q)) \/
  (iterate ord (S (h_next h)) h (m_root m) = None /\ exists q, par r = Some q /\ forall x, under r x -> low x <> low q).
Proof.
  intros Rm. unfold iterate. rewrite Rm.
  assert (parent_feature h r = Some (par r)) as ->.
  { unfold parent_feature. destruct (cell r Ir) as (g & e & C & _). rewrite C. cbn [bind n_parent]. destruct (par r) as [q|] eqn:P; [|reflexivity].
    destruct (cell q (proj1 (wi_par _ _ _ _ _ _ W r q Ir P))) as (g' & e' & C' & _). cbn [first_feature]. rewrite C'. reflexivity. }
  cbn [bind]. destruct (sweep (par r) eq_refl (S (h_next h)) [r] []) as [(out & E & D & M & St)|(E & p & P & N)].
  - constructor; cbn [app].
    + constructor; [intros []|constructor].
    + intros x [<-|[]]. exact Ir.
    + intros x [<-|[]]. left. reflexivity.
    + left. reflexivity.
    + intros j v _ _ [].
    + intros x [<-|[]]. constructor.
    + intros v t [].
    + intros q ->. reflexivity.
  - pose proof small. cbn. lia.
  - left. exists out. split; [exact E|]. split; [exact D|]. split; [intros x X; apply M; exact X|]. intros q Q. apply St. rewrite Q. reflexivity.
  - right. split; [exact E|]. exists p. split; assumption.
Qed.
End Loop.
