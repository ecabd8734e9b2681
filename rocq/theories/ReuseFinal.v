(** Builders and readers that are used more than once. *)
From Coq Require Import List Bool Ascii String ZArith Lia.
From Verif Require Import Text TextProofs ConstraintModel ConstraintParserModel SourceRangeModel StepFunctionModel FeatureTreeModel FeatureTransactionModel SxfmModel XmlModel ReuseModel ReuseSpec.
Import ListNotations.
Local Open Scope string_scope.
Local Open Scope list_scope.

(** ** Builders *)
Definition shut (b : builder) : Prop := t_open (b_features b) = false /\ t_open (b_tree b) = false /\ t_open (b_relations b) = false.
Lemma open_call b c : open_builder b -> exists b', builder_call b c = Some b' /\ open_builder b' /\ b_model b' = b_model b.
Proof.
  destruct b as [m f t r]. intros (F & T & R). cbn in F, T, R. destruct c; cbn [builder_call]; unfold enqueue; rewrite ?F, ?T, ?R; cbn; eexists; (split; [reflexivity|]); (split; [repeat split; cbn; assumption|reflexivity]).
Qed.
Lemma open_calls cs : forall b, open_builder b -> exists b', fold_left (fun o c => let* b := o in builder_call b c) cs (Some b) = Some b' /\ open_builder b'.
Proof.
  induction cs as [|c cs IH]; intros b O; [exists b; auto|]. cbn [fold_left bind]. destruct (open_call b c O) as (b1 & -> & O1 & _). exact (IH b1 O1).
Qed.
Lemma shut_call b c : shut b -> match builder_call b c with Some b' => unchecked (UCall c) /\ shut b' /\ b_model b' = b_model b | None => ~ unchecked (UCall c) end.
Proof.
  destruct b as [m f t r]. intros (F & T & R). cbn in F, T, R. destruct c; cbn [builder_call]; unfold enqueue; rewrite ?F, ?T, ?R; cbn; auto; (split; [exact Logic.I|split; [repeat split; cbn; assumption|reflexivity]]).
Qed.
Lemma commit_shuts ord t w t' w' e : commit_modify ord t w = Some (t', w', e) -> t_open t' = false.
Proof.
  unfold commit_modify. destruct (t_open t); [|intros E; injection E as <- _ _; reflexivity]. destruct (run ord (t_queue t) w) as [(w1, [c|])|]; cbn [bind]; [intros E; injection E as <- _ _; reflexivity| |discriminate].
  destruct (consistent (fst w1) (snd w1)); cbn [bind]; [intros E; injection E as <- _ _; reflexivity|discriminate].
Qed.
Lemma build_shuts ord h b h' m b' : build ord h b = Some (h', m, b') -> shut b' /\ match m with Some _ => b_model b' = None | None => b_model b' <> None end.
Proof.
  unfold build. destruct (b_model b) as [m0|]; [|discriminate]. destruct (commit_modify ord (b_features b) (h, m0)) as [((f, w1), e1)|] eqn:E1; cbn [bind]; [|discriminate]. apply commit_shuts in E1.
  destruct e1 as [c|]; [intros E; injection E as <- <- <-; split; [unfold shut; cbn; auto|discriminate]|].
  destruct (commit_modify ord (b_tree b) w1) as [((t, w2), e2)|] eqn:E2; cbn [bind]; [|discriminate]. apply commit_shuts in E2.
  destruct e2 as [c|]; [intros E; injection E as <- <- <-; split; [unfold shut; cbn; auto|discriminate]|].
  destruct (commit_modify ord (b_relations b) w2) as [((r, w3), e3)|] eqn:E3; cbn [bind]; [|discriminate]. apply commit_shuts in E3.
  destruct e3 as [c|]; intros E; injection E as <- <- <-; (split; [repeat split; assumption|]); [discriminate|reflexivity].
Qed.
Lemma build_shut ord h b m : shut b -> b_model b = Some m -> exists b', build ord h b = Some (h, None, b') /\ shut b' /\ b_model b' = Some m.
Proof.
  intros (F & T & R) E. unfold build. rewrite E. unfold commit_modify. rewrite F. cbn [bind fst snd]. eexists. split; [reflexivity|]. split; [repeat split; reflexivity|reflexivity].
Qed.

Lemma unchecked_dec u : {unchecked u} + {~ unchecked u}.
Proof. destruct u as [[]|]; cbn; auto. Qed.
(** A builder that has failed. *)
Lemma failed_uses ord us : forall h b m, shut b -> b_model b = Some m ->
  match use_all ord us h b with
  | Some (h', _, ms) => Forall unchecked us /\ h' = h /\ ms = repeat None (builds us)
  | None => ~ Forall unchecked us
  end.
Proof.
  induction us as [|[c|] us IH]; intros h b m S E; cbn [use_all builds repeat].
  - split; [constructor|auto].
  - pose proof (shut_call b c S) as X. destruct (builder_call b c) as [b1|]; cbn [bind]; [|intros F; inversion F; contradiction]. destruct X as (U & S1 & E1). rewrite E in E1. specialize (IH h b1 m S1 E1).
    destruct (use_all ord us h b1) as [((h2, b2), ms)|]; [destruct IH as (F & H1 & H2); split; [constructor; assumption|auto]|intros F; inversion F; contradiction].
  - destruct (build_shut ord h b m S E) as (b1 & -> & S1 & E1). cbn [bind]. specialize (IH h b1 m S1 E1). destruct (use_all ord us h b1) as [((h2, b2), ms)|]; cbn [bind].
    + destruct IH as (F & -> & ->). split; [constructor; [exact Logic.I|exact F]|auto].
    + intros F; inversion F; contradiction.
Qed.
(** A builder that has given its model away. *)
Lemma spent_uses ord us : forall h b, shut b -> b_model b = None ->
  match use_all ord us h b with
  | Some (h', _, ms) => Forall unchecked us /\ builds us = 0 /\ h' = h /\ ms = []
  | None => ~ (Forall unchecked us /\ builds us = 0)
  end.
Proof.
  induction us as [|[c|] us IH]; intros h b S E; cbn [use_all builds].
  - split; [constructor|auto].
  - pose proof (shut_call b c S) as X. destruct (builder_call b c) as [b1|]; cbn [bind]; [|intros (F & _); inversion F; contradiction]. destruct X as (U & S1 & E1). rewrite E in E1. specialize (IH h b1 S1 E1).
    destruct (use_all ord us h b1) as [((h2, b2), ms)|]; [destruct IH as (F & B & H1 & H2); split; [constructor; assumption|auto]|intros (F & B); inversion F; apply IH; auto].
  - unfold build. rewrite E. cbn [bind]. intros (_ & B). discriminate.
Qed.
Lemma start_open h : open_builder (snd (builder_start h)).
Proof. unfold builder_start. destruct (new_model h). repeat split. Qed.
Lemma first_uses ord us : forall h b, open_builder b ->
  match after_first us with
  | None => exists b', use_all ord us h b = Some (h, b', [])
  | Some r => use_all ord us h b = (let* b1 := fold_left (fun o c => let* b := o in builder_call b c) (first_calls us) (Some b) in
      let* (h1, m, b2) := build ord h b1 in let* (h2, b3, ms) := use_all ord r h1 b2 in Some (h2, b3, m :: ms))
  end.
Proof.
  induction us as [|[c|] us IH]; intros h b O; cbn [after_first use_all first_calls fold_left bind].
  - exists b. reflexivity.
  - destruct (open_call b c O) as (b1 & E & O1 & _). rewrite E. cbn [bind]. specialize (IH h b1 O1). exact IH.
  - reflexivity.
Qed.

Theorem builders_once ord h us :
  match after_first us with
  | None => exists h', use_builder ord h us = Some (h', [])
  | Some r =>
      match build_calls ord h (first_calls us) with
      | None => use_builder ord h us = None
      | Some (h', Some m) => (Forall unchecked r /\ builds r = 0 -> use_builder ord h us = Some (h', [Some m])) /\ (~ (Forall unchecked r /\ builds r = 0) -> use_builder ord h us = None)
      | Some (h', None) => (Forall unchecked r -> use_builder ord h us = Some (h', repeat None (S (builds r)))) /\ (~ Forall unchecked r -> use_builder ord h us = None)
      end
  end.
Proof.
  unfold use_builder, build_calls. pose proof (start_open h) as O. destruct (builder_start h) as (h1, b). cbn [snd] in O. pose proof (first_uses ord us h1 b O) as X. destruct (after_first us) as [r|].
  - rewrite X. destruct (open_calls (first_calls us) b O) as (b1 & -> & _). cbn [bind]. destruct (build ord h1 b1) as [((h2, m), b2)|] eqn:B; cbn [bind]; [|reflexivity]. destruct (build_shuts _ _ _ _ _ _ B) as (S & M). destruct m as [m|].
    + pose proof (spent_uses ord r h2 b2 S M) as Y. destruct (use_all ord r h2 b2) as [((h3, b3), ms)|]; cbn [bind].
      * destruct Y as (F & Z & -> & ->). split; [reflexivity|]. intros N. destruct N. auto.
      * split; [contradiction|reflexivity].
    + destruct (b_model b2) as [m0|] eqn:M0; [|contradiction]. pose proof (failed_uses ord r h2 b2 m0 S M0) as Y. destruct (use_all ord r h2 b2) as [((h3, b3), ms)|]; cbn [bind].
      * destruct Y as (F & -> & ->). split; [reflexivity|contradiction].
      * split; [contradiction|reflexivity].
  - destruct X as (b' & ->). cbn [bind]. eauto.
Qed.
(** At most one building gives a model. *)
Theorem one_model ord h us h' ms : use_builder ord h us = Some (h', ms) -> forall i j m m', nth_error ms i = Some (Some m) -> nth_error ms j = Some (Some m') -> i = j.
Proof.
  intros E. assert (X : ms = [] \/ (exists m, ms = [Some m]) \/ exists n, ms = repeat None n).
  { pose proof (builders_once ord h us) as B. destruct (after_first us) as [r|]; [|destruct B as (h1 & B); rewrite B in E; injection E as _ <-; auto].
    destruct (build_calls ord h (first_calls us)) as [(h1, [m|])|]; [| |congruence].
    - destruct B as (B1 & B2). assert (D : {Forall unchecked r /\ builds r = 0} + {~ (Forall unchecked r /\ builds r = 0)}).
      { destruct (Forall_dec unchecked unchecked_dec r); [destruct (Nat.eq_dec (builds r) 0); [left; auto|right; tauto]|right; tauto]. }
      destruct D as [D|D]; [rewrite (B1 D) in E; injection E as _ <-; eauto|rewrite (B2 D) in E; discriminate].
    - destruct B as (B1 & B2). destruct (Forall_dec unchecked unchecked_dec r) as [D|D]; [rewrite (B1 D) in E; injection E as _ <-; right; right; exists (S (builds r)); reflexivity|rewrite (B2 D) in E; discriminate]. }
  intros i j m m' Hi Hj. destruct X as [-> | [(m0 & ->)|(n & ->)]].
  - destruct i; discriminate.
  - destruct i as [|[|i]], j as [|[|j]]; try discriminate; reflexivity.
  - apply nth_error_In in Hi. apply repeat_spec in Hi. discriminate.
Qed.

(** ** Readers *)
(** The calls before only matter where a parent is looked up. *)
Lemma parent_before pre cs s : parent_name (pre ++ cs) s = match parent_name cs s with Some q => Some q | None => parent_name pre s end.
Proof.
  unfold parent_name. rewrite fold_left_app. set (f := fun o c => match c with BEdge p x => if text_eqb x s then Some p else o | _ => o end). generalize (fold_left f pre None) as o. clear pre.
  induction cs as [|c cs IH] using rev_ind; intros o; [reflexivity|]. rewrite !fold_left_app. cbn [fold_left]. destruct c; cbn [f]; try apply IH. destruct (text_eqb child s); [reflexivity|apply IH].
Qed.
(** With calls before, the same, or refused. *)
Definition alike {A} (g : A -> A) (x y : sx A) : Prop :=
  y = SxRefused \/ y = match x with SxDone a => SxDone (g a) | SxRefused => SxRefused | SxThrown => SxThrown | SxUndefined => SxUndefined | SxEndless => SxEndless end.
Lemma alike_done {A} (g : A -> A) a : alike g (SxDone a) (SxDone (g a)).
Proof. right. reflexivity. Qed.
Lemma alike_bind {A B} (g : A -> A) (k : B -> B) x y f f' : alike g x y -> (forall a, alike k (f a) (f' (g a))) -> alike k (sx_bind x f) (sx_bind y f').
Proof. intros [-> | ->] H; [left; reflexivity|]. destruct x; cbn [sx_bind]; [apply H|left; reflexivity|right; reflexivity|right; reflexivity|right; reflexivity]. Qed.
Lemma alike_fold {A C} (g : A -> A) (f : A -> C -> sx A) l : (forall a c, alike g (f a c) (f (g a) c)) ->
  forall x y, alike g x y -> alike g (fold_left (fun o c => sx_bind o (fun a => f a c)) l x) (fold_left (fun o c => sx_bind o (fun a => f a c)) l y).
Proof. intros H. induction l as [|c l IH]; intros x y X; [exact X|]. cbn [fold_left]. apply IH. apply (alike_bind g g); [exact X|]. intros a. apply H. Qed.
Lemma alike_same {A} (x : sx A) : alike (fun a => a) x x.
Proof. right. destruct x; reflexivity. Qed.

Section Pre.
Variables (sci : text -> option text) (step : text -> sx (option (Z -> option Z))) (pre : list bcall).
Lemma edge_alike cs p s : alike (app pre) (edge_call cs p s) (edge_call (pre ++ cs) p s).
Proof.
  unfold edge_call. rewrite parent_before. destruct (parent_name cs s) as [q|].
  - destruct (text_eqb q p); [rewrite <- app_assoc; apply alike_done|right; reflexivity].
  - destruct (parent_name pre s) as [q|]; [|rewrite <- app_assoc; apply alike_done]. destruct (text_eqb q p); [rewrite <- app_assoc; apply alike_done|left; reflexivity].
Qed.
Definition before (s : ostate) : ostate := with_calls s (pre ++ o_calls s).
Lemma field_alike num s c : alike before (read_field sci step num s c) (read_field sci step num (before s) c).
Proof.
  destruct s as [n out opt lo hi vs rs st cs]. unfold read_field, before. cbn [with_calls o_name o_output o_opt o_min o_max o_values o_ranges o_step o_calls]. destruct (trim (content c)) as [|x t] eqn:E; [right; reflexivity|]. rewrite <- E. clear E x t.
  repeat match goal with |- context [if ?b then _ else _] => destruct b end; try (right; reflexivity).
  - apply (alike_bind (app pre)); [apply edge_alike|]. intros a. right. reflexivity.
  - apply (alike_bind (app pre)); [|intros a; right; reflexivity]. apply (alike_fold (app pre) (fun cs d => if is_tag "options" d then edge_call cs n (content d) else SxDone cs)); [|apply alike_done]. intros a d. destruct (is_tag "options" d); [apply edge_alike|apply alike_done].
  - right. cbn. rewrite <- app_assoc. reflexivity.
  - right. cbn. rewrite <- app_assoc. reflexivity.
  - apply (alike_bind (fun a => a)); [apply alike_same|]. intros a. right. reflexivity.
  - apply (alike_bind (fun a => a)); [apply alike_same|]. intros a. right. reflexivity.
Qed.
Lemma option_alike num cs e : alike (app pre) (read_option sci step num cs e) (read_option sci step num (pre ++ cs) e).
Proof.
  unfold read_option. apply (alike_bind before).
  - apply (alike_fold before (read_field sci step num)); [intros a c; apply field_alike|right; reflexivity].
  - intros s. right. destruct s. cbn. rewrite <- app_assoc. reflexivity.
Qed.
Lemma options_alike num cs e : alike (app pre) (read_options sci step num cs e) (read_options sci step num (pre ++ cs) e).
Proof.
  unfold read_options. apply (alike_fold (app pre) (fun cs c => if is_tag "configurationOption" c then read_option sci step num cs c else SxDone cs)); [|apply alike_done]. intros a c. destruct (is_tag "configurationOption" c); [apply option_alike|apply alike_done].
Qed.
Lemma section_alike f cs e : alike (app pre) (read_section f cs e) (read_section f (pre ++ cs) e).
Proof.
  unfold read_section. apply (alike_fold (app pre) (fun cs c => if is_tag "constraint" c then sx_bind (f c) (fun b => SxDone (cs ++ [b])) else SxDone cs)); [|apply alike_done].
  intros a c. destruct (is_tag "constraint" c); [|apply alike_done]. apply (alike_bind (fun x => x)); [apply alike_same|]. intros b. right. rewrite <- app_assoc. reflexivity.
Qed.
Lemma more_alike cwd cs e : alike (app pre) (read_more sci step cwd cs e) (read_more sci step cwd (pre ++ cs) e).
Proof.
  unfold read_more. apply (alike_fold (app pre) (fun cs c =>
      if is_tag "binaryOptions" c then read_options sci step false cs c
      else if is_tag "numericOptions" c then read_options sci step true cs c
      else if is_tag "booleanConstraints" c then read_section (read_plain sci KBoolean) cs c
      else if is_tag "nonBooleanConstraints" c then read_section (read_plain sci KNonBoolean) cs c
      else if is_tag "mixedConstraints" c then read_section (read_mixed sci) cs c
      else SxDone cs)).
  - intros a c. repeat match goal with |- context [if ?b then _ else _] => destruct b end; try apply options_alike; try apply section_alike. apply alike_done.
  - right. rewrite app_assoc. reflexivity.
Qed.
End Pre.

Section Reader.
Variables (ord : list nid -> list nid) (sci : text -> option text) (step : text -> sx (option (Z -> option Z))) (cwd : text).
Notation read := (read_with ord sci step cwd).

Lemma more_none e : read_more sci step cwd [] e = read_vm sci step cwd e.
Proof. reflexivity. Qed.
Lemma begun_open h h1 r : begun h h1 r -> open_builder (r_builder r).
Proof. intros [cs b E]. cbn. destruct (open_calls cs _ (start_open h)) as (b' & E' & O). rewrite E in E'. injection E' as ->. exact O. Qed.

(** The first reading is the one of C52. *)
Theorem first_reading h e :
  let (h1, r) := new_reader h in
  match read h1 r e with
  | SxDone (h', m, _) => read_xml ord sci step cwd h e = SxDone (h', m)
  | SxRefused => read_xml ord sci step cwd h e = SxRefused
  | SxThrown => read_xml ord sci step cwd h e = SxThrown
  | SxUndefined => read_xml ord sci step cwd h e = SxUndefined
  | SxEndless => read_xml ord sci step cwd h e = SxEndless
  end.
Proof.
  unfold new_reader, read_with, read_xml, build_calls. pose proof (start_open h) as O. destruct (builder_start h) as (h1, b). cbn [snd] in O. cbn [r_builder r_calls List.length skipn]. destruct (valid e); [|reflexivity].
  destruct (open_call b (BName (match attr "name" e with Some t => trim t | None => [] end)) O) as (b0 & -> & _). rewrite more_none.
  destruct (read_vm sci step cwd e) as [cs| | | |]; cbn [sx_bind]; try reflexivity. destruct (open_calls cs b O) as (b1 & -> & _). cbn [bind].
  destruct (build ord h1 b1) as [((h2, [m|]), b2)|]; cbn [bind]; try reflexivity. destruct (detect ord h2 m) as [(h3, m3)|]; reflexivity.
Qed.

(** Refused once, refused always. *)
Lemma refused_more h h1 r r' more e h2 : begun h h1 r -> begun h h1 r' -> r_calls r' = more ++ r_calls r -> read h1 r e = SxRefused -> read h2 r' e = SxRefused.
Proof.
  intros B B' Cs. unfold read_with. destruct (valid e); [|reflexivity]. pose proof (begun_open _ _ _ B) as O. pose proof (begun_open _ _ _ B') as O'.
  destruct (open_call _ (BName (match attr "name" e with Some t => trim t | None => [] end)) O) as (b0 & -> & _). destruct (open_call _ (BName (match attr "name" e with Some t => trim t | None => [] end)) O') as (b1 & -> & _).
  rewrite Cs. destruct (more_alike sci step more cwd (r_calls r) e) as [-> | ->]; [reflexivity|].
  destruct (read_more sci step cwd (r_calls r) e) as [cs| | | |]; cbn [sx_bind]; try discriminate; [|reflexivity].
  destruct (fold_left (fun o c => let* b := o in builder_call b c) (skipn (List.length (r_calls r)) cs) (Some (r_builder r))) as [b|]; [|discriminate]. destruct (build ord h1 b) as [((h3, [m|]), b2)|]; try discriminate. destruct (detect ord h3 m) as [(h4, m4)|]; discriminate.
Qed.

Theorem refused_again h e r h2 : begun h (fst (new_reader h)) r -> read (fst (new_reader h)) (snd (new_reader h)) e = SxRefused -> read h2 r e = SxRefused.
Proof.
  intros B E. assert (N : begun h (fst (new_reader h)) (snd (new_reader h))).
  { pose proof (begun_at h [] (snd (builder_start h)) eq_refl) as X. unfold new_reader. destruct (builder_start h). exact X. }
  apply (refused_more h (fst (new_reader h)) (snd (new_reader h)) r (r_calls r) e h2 N B); [|exact E]. unfold new_reader. destruct (builder_start h). cbn. symmetry. apply app_nil_r.
Qed.

(** A reader that came to building cannot be asked again. *)
Theorem built_once h r e h' m r' e' h2 : read h r e = SxDone (h', m, r') -> read h2 r' e' = if valid e' then SxUndefined else SxRefused.
Proof.
  unfold read_with at 1. destruct (valid e); [|discriminate]. destruct (builder_call (r_builder r) _); [|discriminate]. destruct (read_more sci step cwd (r_calls r) e) as [cs| | | |]; cbn [sx_bind]; try discriminate.
  destruct (fold_left (fun o c => let* b := o in builder_call b c) (skipn (List.length (r_calls r)) cs) (Some (r_builder r))) as [b1|]; [|discriminate]. destruct (build ord h b1) as [((h1, mo), b2)|] eqn:B; [|discriminate].
  destruct (build_shuts _ _ _ _ _ _ B) as (S & _). assert (X : SxDone (h', m, r') = SxDone (h', m, Reader b2 cs) -> read h2 r' e' = if valid e' then SxUndefined else SxRefused).
  { intros E. injection E as ->. unfold read_with. cbn [r_builder]. destruct (valid e'); [|reflexivity]. pose proof (shut_call b2 (BName (match attr "name" e' with Some t => trim t | None => [] end)) S) as Y. destruct (builder_call b2 _); [destruct Y as ([] & _)|reflexivity]. }
  destruct mo as [m1|].
  - destruct (detect ord h1 m1) as [(h3, m3)|]; [|discriminate]. intros E. injection E as <- <- <-. apply X. reflexivity.
  - intros E. injection E as <- <- <-. apply X. reflexivity.
Qed.
End Reader.
