(** Copy transactions do to the copy what they are told. *)
From Coq Require Import List ZArith Arith Bool Ascii String Permutation Lia.
From Verif Require Import Text TextProofs ConstraintModel ConstraintSpec SourceRangeModel FeatureTreeModel FeatureTreeSpec FeatureTreeProofs FeatureTransactionModel FeatureTransactionSpec FeatureTransactionFinal FeatureEditSpec FeatureEditProofs FeatureIsolationProofs
  XmlModel XmlSpec RegisterSpec SafeSpec SafeProofs CopySafeSpec.
Import ListNotations.

(** ** One call *)
Lemma translate_called h m r x : translate h m r = Some x <-> exists s, called (h, m) r s /\ x = get_feature m s.
Proof.
  unfold translate, called. cbn [fst snd]. split.
  - intros E. apply bind_some in E. destruct E as (i & E1 & E). apply bind_some in E. destruct E as (s & E2 & E). injection E as <-. exists s. eauto.
  - intros (s & (i & E1 & E2) & ->). rewrite E1. cbn [bind]. rewrite E2. reflexivity.
Qed.
Lemma translated_means ord h m r (f : nref -> op) null z : (let* i := translate h m r in translated ord i f null (h, m)) = z -> z <> None ->
  (exists j, in_copy (h, m) r j /\ exec ord (f (ByPtr j)) (h, m) = z) \/ (exists s, called (h, m) r s /\ get_feature m s = None /\ null = z).
Proof.
  intros E N. destruct (translate h m r) as [x|] eqn:T; [|cbn in E; congruence]. cbn [bind] in E. apply translate_called in T. destruct T as (s & C & ->). destruct (get_feature m s) as [j|] eqn:G.
  - left. exists j. split; [exists s; auto|exact E].
  - right. exists s. auto.
Qed.
Lemma means_translated ord h m r (f : nref -> op) null j : in_copy (h, m) r j -> (let* i := translate h m r in translated ord i f null (h, m)) = exec ord (f (ByPtr j)) (h, m).
Proof. intros (s & C & G). rewrite (proj2 (translate_called h m r (Some j))); [reflexivity|]. exists s. split; [exact C|]. symmetry. exact G. Qed.
Lemma missing_translated ord h m r (f : nref -> op) null s : called (h, m) r s -> get_feature m s = None -> (let* i := translate h m r in translated ord i f null (h, m)) = null.
Proof. intros C G. rewrite (proj2 (translate_called h m r None)); [reflexivity|]. exists s. split; [exact C|]. symmetry. exact G. Qed.

Definition copy_step ord o (w : world) : result :=
  let (h, m) := w in
  match o with
  | OAddFeature f (Some p) => let* s := name_at h p in exec ord (OAddFeature f (get_feature m s)) w
  | OAddFeature f None => exec ord o w
  | ORemoveFeature r b => let* i := translate h m r in translated ord i (fun q => ORemoveFeature q b) (failure MISSING_FEATURE w) w
  | OAddRelationship k r => let* i := translate h m r in translated ord i (OAddRelationship k) None w
  | ORemoveRelationship r => let* i := translate h m r in translated ord i ORemoveRelationship (failure MISSING_PARENT w) w
  | OAddLocation r l => let* i := translate h m r in translated ord i (fun q => OAddLocation q l) None w
  | ORemoveLocation r l => let* i := translate h m r in translated ord i (fun q => ORemoveLocation q l) None w
  | OAddConstraint _ _ | OSetName _ | OSetCommit _ | OSetPath _ | OSetRoot _ => exec ord o w
  | OAddChild _ _ => success w
  end.
Lemma copy_exec_step ord o h m b : copy_exec ord o h (Ctx (Some m) b) = let* (w1, e) := copy_step ord o (h, m) in Some (fst w1, Ctx (Some (snd w1)) b, reported o e).
Proof. unfold copy_exec. cbn [x_copy x_continue]. destruct o; reflexivity. Qed.
Lemma copy_step_iff ord o w w' e : copy_step ord o w = Some (w', e) <->
  (exists o', meant w o o' /\ exec ord o' w = Some (w', e)) \/ (idle w o /\ w' = w /\
    match o with ORemoveFeature _ _ => e = Some MISSING_FEATURE | ORemoveRelationship _ => e = Some MISSING_PARENT | _ => e = None end).
Proof.
  destruct w as [h m]. split.
  - destruct o as [f [p|]|r b|k r|r|r l|r l|k c|s|s|s|s|rp rc]; cbn [copy_step]; intros E; try (left; eexists; split; [constructor|exact E]).
    + apply bind_some in E. destruct E as (s & E1 & E). left. eexists. split; [exact (meant_add (h, m) f p s E1)|exact E].
    + apply translated_means in E; [|discriminate]. destruct E as [(j & I & E)|(s & C & G & E)]; [left; eexists; split; [exact (meant_remove (h, m) r b j I)|exact E]|]. injection E as <- <-. right. split; [exact (idle_remove (h, m) r b s C G)|auto].
    + apply translated_means in E; [|discriminate]. destruct E as [(j & I & E)|(s & C & G & E)]; [left; eexists; split; [exact (meant_group (h, m) k r j I)|exact E]|]. discriminate E.
    + apply translated_means in E; [|discriminate]. destruct E as [(j & I & E)|(s & C & G & E)]; [left; eexists; split; [exact (meant_ungroup (h, m) r j I)|exact E]|]. injection E as <- <-. right. split; [exact (idle_ungroup (h, m) r s C G)|auto].
    + apply (translated_means ord h m r (fun q => OAddLocation q l)) in E; [|discriminate]. destruct E as [(j & I & E)|(s & C & G & E)]; [left; eexists; split; [exact (meant_locate (h, m) r l j I)|exact E]|]. discriminate E.
    + apply (translated_means ord h m r (fun q => ORemoveLocation q l)) in E; [|discriminate]. destruct E as [(j & I & E)|(s & C & G & E)]; [left; eexists; split; [exact (meant_unlocate (h, m) r l j I)|exact E]|]. discriminate E.
    + injection E as <- <-. right. split; [constructor|auto].
  - intros [(o' & M & E)|(I & -> & X)].
    + destruct M as [f p s N|f|r b j I|k r j I|r j I|r l j I|r l j I|k c|s|s|s|s]; cbn [copy_step]; try exact E.
      * cbn [fst snd] in N, E. rewrite N. exact E.
      * rewrite (means_translated ord h m r (fun q => ORemoveFeature q b) _ j I). exact E.
      * rewrite (means_translated ord h m r (OAddRelationship k) _ j I). exact E.
      * rewrite (means_translated ord h m r ORemoveRelationship _ j I). exact E.
      * rewrite (means_translated ord h m r (fun q => OAddLocation q l) _ j I). exact E.
      * rewrite (means_translated ord h m r (fun q => ORemoveLocation q l) _ j I). exact E.
    + destruct I as [p c|r b s C G|r s C G]; cbn [copy_step snd] in *; subst e; [reflexivity| |].
      * rewrite (missing_translated ord h m r _ _ s C G). reflexivity.
      * rewrite (missing_translated ord h m r _ _ s C G). reflexivity.
Qed.
Theorem copy_calls ord o h m b h' t' e : copy_exec ord o h (Ctx (Some m) b) = Some (h', t', e) <->
  (exists o' m' e0, meant (h, m) o o' /\ exec ord o' (h, m) = Some ((h', m'), e0) /\ t' = Ctx (Some m') b /\ (tells o /\ e = e0 \/ ~ tells o /\ e = None)) \/
  (idle (h, m) o /\ h' = h /\ t' = Ctx (Some m) b /\ e = None).
Proof.
  assert (Rp : forall e0, reported o e0 = e <-> (tells o /\ e = e0 \/ ~ tells o /\ e = None)) by (intros e0; destruct o; cbn [reported tells]; intuition congruence).
  rewrite copy_exec_step. split.
  - intros E. apply bind_some in E. destruct E as (([h1 m1] & e1) & E1 & E). injection E as <- <- Ee. apply copy_step_iff in E1. destruct E1 as [(o' & M & E1)|(I & W & Q)].
    + left. exists o', m1, e1. split; [exact M|]. split; [exact E1|]. split; [reflexivity|]. apply Rp. exact Ee.
    + right. injection W as -> ->. split; [exact I|]. split; [reflexivity|]. split; [reflexivity|]. rewrite <- Ee. destruct I; subst e1; reflexivity.
  - intros [(o' & m' & e0 & M & E & -> & X)|(I & -> & -> & ->)].
    + rewrite (proj2 (copy_step_iff ord o (h, m) (h', m') e0)); [|left; eauto]. cbn [bind fst snd]. apply Rp in X. rewrite X. reflexivity.
    + rewrite (proj2 (copy_step_iff ord o (h, m) (h, m) (match o with ORemoveFeature _ _ => Some MISSING_FEATURE | ORemoveRelationship _ => Some MISSING_PARENT | _ => None end))); [|right; split; [exact I|]; split; [reflexivity|]; destruct o; reflexivity].
      cbn [bind fst snd]. destruct I; reflexivity.
Qed.

(** ** All calls *)
Lemma copy_run_meant ord os os' : forall h m b w, all_meant ord (h, m) os os' w -> copy_run ord os h (Ctx (Some m) b) = Some (fst w, Ctx (Some (snd w)) b).
Proof.
  revert os'. induction os as [|o os IH]; intros os' h m b w A; inversion A as [|? ? o' ? os2 [h1 m1] ? M E A1]; subst; [reflexivity|]. cbn [copy_run].
  rewrite copy_exec_step, (proj2 (copy_step_iff ord o (h, m) (h1, m1) None)); [|left; eauto]. cbn [bind fst snd]. exact (IH os2 h1 m1 b w A1).
Qed.
Lemma all_meant_run ord os os' w w' : all_meant ord w os os' w' -> all_succeed ord os' w w'.
Proof. induction 1 as [w|w o o' os os' w1 w2 M E A IH]; [constructor|]. exact (all_cons ord o' os' w w1 w2 E IH). Qed.
Theorem copies_like_originals ord os os' h m h' m' : all_meant ord (h, m) os os' (h', m') -> consistent h' m' = Some true ->
  commit_modify ord (Mtx true os') (h, m) = Some (Mtx false os', (h', m'), None) /\
  exists t, copy_run ord os h (Ctx (Some m) true) = Some (h', t) /\ commit_copy h' t = Some (Some m', Ctx None true).
Proof.
  intros A C. split.
  - apply commit_ends. split; [reflexivity|]. apply ends_well; [exact (all_meant_run ord os os' (h, m) (h', m') A)|exact C].
  - eexists. split; [exact (copy_run_meant ord os os' h m true (h', m') A)|]. unfold commit_copy. cbn [x_copy x_continue fst snd]. rewrite C. reflexivity.
Qed.

(** ** With care *)
Section Careful.
Variable ord : list nid -> list nid.
Hypothesis ord_ok : is_order ord.
Lemma careful_copy_runs os : forall h m b, sound h m -> careful_copy ord (h, m) os -> exists h' m', copy_run ord os h (Ctx (Some m) b) = Some (h', Ctx (Some m') b) /\ sound h' m'.
Proof.
  induction os as [|o os IH]; intros h m b Sw C; [exists h, m; split; [reflexivity|exact Sw]|]. cbn [copy_run]. inversion C as [|? ? o' ? M A D Sp F Cn|? ? ? I Cn]; subst.
  - destruct Sw as ((t & R) & Sw'). apply (defined_exactly ord ord_ok h m t R o' A) in D. destruct (exec ord o' (h, m)) as [[[h1 m1] e]|] eqn:E; [|congruence].
    pose proof (step_sound ord ord_ok (h, m) o' (h1, m1) e (conj (ex_intro _ t R) Sw') A Sp F E) as S1.
    rewrite copy_exec_step, (proj2 (copy_step_iff ord o (h, m) (h1, m1) e)); [|left; eauto]. cbn [bind fst snd]. exact (IH h1 m1 b S1 (Cn _ _ eq_refl)).
  - rewrite copy_exec_step, (proj2 (copy_step_iff ord o (h, m) (h, m) (match o with ORemoveFeature _ _ => Some MISSING_FEATURE | ORemoveRelationship _ => Some MISSING_PARENT | _ => None end))); [|right; split; [exact I|]; split; [reflexivity|]; destruct o; reflexivity].
    cbn [bind fst snd]. exact (IH h m b Sw Cn).
Qed.
Lemma copy_grows map_order h m h1 t1 os h2 t2 : heap_ok h -> open_copy ord map_order h m = Some (h1, t1) -> copy_run ord os h1 t1 = Some (h2, t2) ->
  heap_ok h2 /\ h_next h <= h_next h2 /\ forall i, i < h_next h -> h_cells h2 i = h_cells h i.
Proof.
  intros K E1 E2. assert (G1 := open_copy_good ord ord_ok map_order h m h1 t1 K E1). destruct (copy_run_good ord ord_ok _ _ os h1 t1 h2 t2 G1 E2) as [A _].
  split; [exact (ap_ok _ _ _ A)|]. split; [exact (ap_next _ _ _ A)|exact (ap_same _ _ _ A)].
Qed.
End Careful.
