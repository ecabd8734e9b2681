(** How often constraints are stated after a model was saved and loaded. *)
From Coq Require Import List ZArith Arith Bool Ascii String Permutation Lia.
From Verif Require Import Text TextProofs ConstraintModel ConstraintParserModel ConstraintSpec FeatureTreeModel FeatureTreeSpec FeatureTransactionModel
  FeatureEditSpec FeatureTreeProofs FeatureEditProofs FeatureBuildSpec SxfmModel XmlModel XmlWriterModel XmlSpec XmlDetectProofs XmlTripSpec XmlTripWrite XmlTripOption XmlTripCalls XmlTripDoc XmlTripFinal RegisterSpec XmlCycleProofs XmlCountSpec.
Import ListNotations.
Local Open Scope nat_scope.

Lemma text_dec (a b : text) : {a = b} + {a <> b}.
Proof. exact (list_eq_dec ascii_dec a b). Defined.
Lemma expr_dec (a b : cexpr cref) : {a = b} + {a <> b}.
Proof. decide equality; [decide equality|decide equality|apply Z.eq_dec|]. decide equality; [apply text_dec|apply Nat.eq_dec]. Defined.

(** ** Counting *)
Lemma times_unique h l e n : times h l e n -> forall n', times h l e n' -> n = n'.
Proof. intros X. induction X as [e|c l e n S X IH|c l e n S X IH]; intros n' Y; inversion Y; subst; try contradiction; [reflexivity|f_equal; auto|auto]. Qed.
Lemma times_exists h l : (forall c, In c l -> exists e, spelled h (c_expr c) e) -> forall e, exists n, times h l e n.
Proof.
  induction l as [|c l IH]; intros H e; [exists 0; constructor|]. destruct (IH (fun d I => H d (or_intror I)) e) as (n & X). destruct (H c (or_introl eq_refl)) as (e0 & Sp).
  assert (D : {e0 = e} + {e0 <> e}) by (decide equality; [decide equality|decide equality|apply Z.eq_dec|apply string_dec]).
  destruct D as [->|N]; [exists (S n); apply times_one; assumption|]. exists n. apply times_other; [|exact X]. intros S'. exact (N (spelled_unique h _ _ _ Sp S')).
Qed.
Lemma times_stated h l e n : times h l e n -> (stated h l e <-> n <> 0).
Proof.
  intros X. induction X as [e|c l e n S X IH|c l e n S X IH].
  - split; [intros (c & [] & _)|intros N; destruct (N eq_refl)].
  - split; [discriminate|]. intros _. exists c. split; [left; reflexivity|exact S].
  - rewrite <- IH. split; intros (d & I & Sd); [destruct I as [<-|I]; [contradiction|]; exists d; auto|exists d; split; [right; exact I|exact Sd]].
Qed.
Lemma times_app h l k e n n' : times h l e n -> times h k e n' -> times h (l ++ k) e (n + n').
Proof. intros X Y. induction X as [e|c l e n S X IH|c l e n S X IH]; cbn [app plus]; [exact Y|apply times_one; auto|apply times_other; auto]. Qed.

Lemma count_length {A} (dec : forall a b : A, {a = b} + {a <> b}) (x : A) l : count_occ dec l x = List.length (filter (fun y => if dec y x then true else false) l).
Proof. induction l as [|a l IH]; [reflexivity|]. cbn [count_occ filter]. destruct (dec a x); cbn [List.length]; lia. Qed.

Lemma sum_cons a l : list_sum (a :: l) = a + list_sum l.
Proof. reflexivity. Qed.
(** The number of elements of [l] that are the id of a constraint with [q]. *)
Definition chosen (q : mconstraint -> bool) (cs : list mconstraint) (id : nat) : bool := existsb (fun c => Nat.eqb (c_id c) id && q c) cs.
Lemma chosen_one (q : mconstraint -> bool) cs a : NoDup (map c_id cs) -> list_sum (map (fun c => if q c then (if Nat.eq_dec a (c_id c) then 1 else 0) else 0) cs) = if chosen q cs a then 1 else 0.
Proof.
  unfold chosen. induction cs as [|c cs IH]; intros N; [reflexivity|]. cbn [map] in N. apply NoDup_cons_iff in N. destruct N as (N1 & N2). cbn [map existsb]. rewrite sum_cons, (IH N2).
  destruct (Nat.eq_dec a (c_id c)) as [->|Na].
  - rewrite Nat.eqb_refl. cbn [andb]. assert (existsb (fun d => Nat.eqb (c_id d) (c_id c) && q d) cs = false) as ->.
    { destruct (existsb _ cs) eqn:X; [|reflexivity]. apply existsb_exists in X. destruct X as (d & I & X). apply andb_true_iff in X. destruct X as (X & _). apply Nat.eqb_eq in X. destruct N1. rewrite <- X. apply in_map. exact I. }
    destruct (q c); reflexivity.
  - destruct (Nat.eqb_spec (c_id c) a) as [E|_]; [congruence|]. cbn [andb orb]. destruct (q c); reflexivity.
Qed.
Lemma sum_split {A} (f g : A -> nat) l : list_sum (map (fun x => f x + g x) l) = list_sum (map f l) + list_sum (map g l).
Proof. induction l as [|a l IH]; [reflexivity|]. cbn [map]. rewrite !sum_cons. lia. Qed.
Lemma chosen_count (q : mconstraint -> bool) cs l : NoDup (map c_id cs) -> List.length (filter (chosen q cs) l) = list_sum (map (fun c => if q c then count_occ Nat.eq_dec l (c_id c) else 0) cs).
Proof.
  intros N. induction l as [|a l IH].
  - cbn [filter List.length count_occ]. clear. induction cs as [|c cs IH]; [reflexivity|]. cbn [map]. rewrite sum_cons, <- IH. destruct (q c); reflexivity.
  - assert (E : map (fun c => if q c then count_occ Nat.eq_dec (a :: l) (c_id c) else 0) cs = map (fun c => (if q c then (if Nat.eq_dec a (c_id c) then 1 else 0) else 0) + (if q c then count_occ Nat.eq_dec l (c_id c) else 0)) cs).
    { apply map_ext. intros c. cbn [count_occ]. destruct (q c); [|reflexivity]. destruct (Nat.eq_dec a (c_id c)); reflexivity. }
    rewrite E, sum_split, <- IH, (chosen_one q cs a N). cbn [filter]. destruct (chosen q cs a); reflexivity.
Qed.
Lemma sum_weight (q : mconstraint -> bool) (v : mconstraint -> nat) w cs : (forall c, In c cs -> q c = true -> v c = w) -> list_sum (map (fun c => if q c then v c else 0) cs) = w * List.length (filter q cs).
Proof.
  intros H. induction cs as [|c cs IH]; [cbn; lia|]. cbn [map filter]. rewrite sum_cons, IH by (intros d I; apply H; right; exact I).
  destruct (q c) eqn:Q; [rewrite (H c (or_introl eq_refl) Q); cbn [List.length]; lia|lia].
Qed.

(** ** The written model *)
Section Written.
Variables (h : heap) (m : fmodel) (t : tree).
Hypothesis R : represents h m t.
Hypothesis En : enrolled h m.
Hypothesis Rs : all_resolved m.
Hypothesis Im : informed h m.

Definition target (i j : nid) (c : mconstraint) : bool := if expr_dec (c_expr c) (CBin BImplies (CFeat (Ref i)) (CFeat (Ref j))) then true else false.
Lemma target_iff i j c : target i j c = true <-> c_expr c = CBin BImplies (CFeat (Ref i)) (CFeat (Ref j)).
Proof. unfold target. destruct (expr_dec _ _); intuition discriminate. Qed.
Lemma target_spelled a b i j c : get_feature m (T a) = Some i -> get_feature m (T b) = Some j -> In c (all_constraints m) -> (spelled h (c_expr c) (implying a b) <-> target i j c = true).
Proof.
  intros Ga Gb I. rewrite target_iff. split.
  - intros Sp. assert (Rf : forall r s k, In r (leaves (c_expr c)) -> called_in h r s -> get_feature m (T s) = Some k -> r = Ref k).
    { intros r s k J C G. destruct (Rs c r I J) as (u & z & -> & Gz). cbn [called_in] in C. destruct C as (f & F & N). rewrite (name_unique h m t R z u f Gz F) in N. subst u. congruence. }
    inversion Sp as [? l r ? ? Xl Xr Ec| | |]; subst. inversion Xl as [| | |ra ? Ca' Ea]; subst. inversion Xr as [| | |rb ? Cb Eb]; subst.
    rewrite <- Ec in Rf. cbn [leaves app] in Rf. rewrite (Rf ra a i), (Rf rb b j); cbn [In]; auto.
  - intros ->. destruct (id_data h m t R i (in_ids h m t R _ _ Ga)) as (f & F & _). destruct (id_data h m t R j (in_ids h m t R _ _ Gb)) as (g & Fg & _).
    constructor; constructor; [exists f|exists g]; (split; [assumption|]); [exact (name_unique h m t R i _ f Ga F)|exact (name_unique h m t R j _ g Gb Fg)].
Qed.
Lemma times_target a b i j : get_feature m (T a) = Some i -> get_feature m (T b) = Some j -> times h (all_constraints m) (implying a b) (List.length (filter (target i j) (all_constraints m))).
Proof.
  intros Ga Gb. assert (S := fun c => target_spelled a b i j c Ga Gb). revert S. induction (all_constraints m) as [|c l IH]; intros S; [constructor|]. cbn [filter].
  destruct (target i j c) eqn:E; [apply times_one; [apply S; [left; reflexivity|exact E]|]|apply times_other; [rewrite S, E by (left; reflexivity); discriminate|]]; apply IH; intros d I; apply S; right; exact I.
Qed.
Lemma times_unknown a b : (forall i j, get_feature m (T a) = Some i -> get_feature m (T b) = Some j -> False) -> times h (all_constraints m) (implying a b) 0.
Proof.
  intros N. assert (S : forall c, In c (all_constraints m) -> ~ spelled h (c_expr c) (implying a b)).
  { intros c I Sp. assert (Gx : forall s, In s (leaves (implying a b)) -> exists k, get_feature m (T s) = Some k).
    { intros s J. destruct (spelled_leaves h _ _ Sp s J) as (r & Ir & C). destruct (Rs c r I Ir) as (u & k & -> & G). cbn [called_in] in C. destruct C as (f & F & Nf). rewrite (name_unique h m t R k u f G F) in Nf. subst u. eauto. }
    destruct (Gx a (or_introl eq_refl)) as (i & Gi). destruct (Gx b (or_intror (or_introl eq_refl))) as (j & Gj). eauto. }
  revert S. induction (all_constraints m) as [|c l IH]; intros S; [constructor|]. apply times_other; [apply S; left; reflexivity|]. apply IH. intros d I. apply S. right. exact I.
Qed.

(** The right-hand sides of the implications of a feature. *)
Lemma sides_count i f j is : get_feature m (f_name f) = Some i -> feature_at h i = Some f -> (exists s, get_feature m s = Some j) -> right_sides h m f (f_implications f) = Some is ->
  count_occ Nat.eq_dec is j = (if Nat.eqb i j then 2 else 1) * List.length (filter (target i j) (all_constraints m)).
Proof.
  intros G F (sj & Gj) E.
  assert (C1 : count_occ Nat.eq_dec is j = List.length (filter (chosen (target i j) (all_constraints m)) (f_implications f))).
  { unfold right_sides in E. apply bind_some in E. destruct E as (rs & E & X). injection X as <-. assert (L := fun id => proj1 (in_implies _ _ Im _ i f id G F)). revert rs E L. induction (f_implications f) as [|id l IH]; intros rs E L; cbn [map_option] in E; [injection E as <-; reflexivity|].
    apply bind_some in E. destruct E as (r & Er & E). apply bind_some in E. destruct E as (rs' & E' & X). injection X as <-. cbn [List.concat filter]. rewrite count_occ_app. pose proof (IH rs' E' (fun d I => L d (or_intror I))) as Hz.
    destruct (L id (or_introl eq_refl)) as (c & Ic & <- & Cl & _). rewrite (constraint_of_in h m En c Ic) in Er. cbn [bind] in Er.
    assert (Ch : chosen (target i j) (all_constraints m) (c_id c) = target i j c).
    { unfold chosen. destruct (target i j c) eqn:Q; [apply existsb_exists; exists c; rewrite Nat.eqb_refl, Q; auto|]. destruct (existsb _ _) eqn:X; [|reflexivity]. apply existsb_exists in X. destruct X as (d & Id & X).
      apply andb_true_iff in X. destruct X as (X1 & X2). apply Nat.eqb_eq in X1. pose proof (constraint_of_in h m En d Id) as Y. rewrite X1, (constraint_of_in h m En c Ic) in Y. apply target_iff in X2. assert (c_expr c = CBin BImplies (CFeat (Ref i)) (CFeat (Ref j))) as Z by congruence. apply target_iff in Z. congruence. }
    rewrite Ch. assert (Q : count_occ Nat.eq_dec r j = if target i j c then 1 else 0); [|etransitivity; [exact (f_equal2 Nat.add Q Hz)|destruct (target i j c); reflexivity]].
    unfold target. destruct (c_expr c) as [o a b|o e|n|x] eqn:Ec; cbn [class_of] in Cl; try discriminate. destruct o; try discriminate.
    destruct a as [oa la ra|oa ea|na|x]; try (injection Er as <-; destruct (expr_dec _ _) as [X|_]; [discriminate X|reflexivity]).
    destruct b as [ob lb rb|ob eb|nb|y]; try (injection Er as <-; destruct (expr_dec _ _) as [X|_]; [discriminate X|reflexivity]).
    destruct (Rs c x Ic) as (sx' & ix & -> & Gx); [rewrite Ec; left; reflexivity|]. destruct (Rs c y Ic) as (sy & iy & -> & Gy); [rewrite Ec; right; left; reflexivity|].
    destruct (id_data h m t R ix (in_ids h m t R _ _ Gx)) as (g & Fg & Gg). cbn [cref_name] in Er. unfold name_at in Er. rewrite Fg in Er. cbn [bind] in Er. destruct (text_eqb (f_name g) (f_name f)) eqn:Eq.
    + apply text_eqb_eq in Eq. rewrite Eq, G in Gg. injection Gg as <-. injection Er as <-. cbn [count_occ]. destruct (Nat.eq_dec iy j) as [->|N].
      * destruct (expr_dec _ _) as [_|N]; [reflexivity|congruence].
      * destruct (expr_dec _ _) as [X|_]; [congruence|reflexivity].
    + apply text_eqb_neq in Eq. injection Er as <-. destruct (expr_dec _ _) as [X|_]; [|reflexivity]. exfalso. injection X as -> ->. apply Eq. congruence. }
  rewrite C1, (chosen_count _ _ _ (en_distinct _ _ En)). apply sum_weight. intros c Ic Q. apply target_iff in Q. rewrite (in_implies_times _ _ Im _ i f c G F Ic); [|rewrite Q; reflexivity]. rewrite Q. unfold how_often. cbn [leaves app filter].
  rewrite Nat.eqb_refl, (Nat.eqb_sym j i). destruct (Nat.eqb i j); reflexivity.
Qed.

(** ** The calls *)
Variables (ids : list nid) (ls : list (list bcall)).
Hypothesis Pi : Permutation ids (feature_ids t).
Hypothesis Ni : NoDup ids.
Hypothesis Ca : Forall2 (calls_at h m) ids ls.
Definition said (l : list bcall) : list (cexpr cref) := flat_map booleans (constraints_of l).
Lemma said_app a b : said (a ++ b) = said a ++ said b.
Proof. unfold said, constraints_of. rewrite !flat_map_app. reflexivity. Qed.
Lemma said_list o i f l : option_calls h m i f l -> exists im ex, said l = map (fun n => CBin BImplies (CFeat (Own (f_name f))) (CFeat (Own n))) im ++ map (fun n => CBin BExcludes (CFeat (Own (f_name f))) (CFeat (Own n))) ex /\ NoDup ex /\
  (get_feature m (f_name f) = Some i -> feature_at h i = Some f -> o = BImplies -> forall n j, get_feature m n = Some j -> count_occ text_dec im n = (if Nat.eqb i j then 2 else 1) * List.length (filter (target i j) (all_constraints m))) /\
  forall n, In n im -> exists j, get_feature m n = Some j.
Proof.
  intros O. destruct (oc_list _ _ _ _ _ O) as (is & is' & im & ex & Ri & Pm & Fm & Nx & El). exists im, ex. split; [|split; [exact Nx|split]].
  - unfold said. rewrite El, flat_map_app. f_equal; [clear; induction im as [|a l IH]|clear; induction ex as [|a l IH]]; try reflexivity; cbn [map flat_map booleans fst snd app]; f_equal; exact IH.
  - intros G F _ n j Gj. rewrite <- (sides_count i f j is G F (ex_intro _ n Gj) Ri), <- (proj1 (Permutation_count_occ Nat.eq_dec is' is) Pm j).
    clear - Fm Gj R. induction Fm as [|k u l us Gk Fm IH]; [reflexivity|]. cbn [count_occ]. rewrite IH. destruct (text_dec u n) as [->|N].
    + destruct (Nat.eq_dec k j) as [_|N]; [reflexivity|congruence].
    + destruct (Nat.eq_dec k j) as [->|_]; [|reflexivity]. destruct N. destruct (id_data h m t R j (in_ids h m t R _ _ Gj)) as (g & Fg & _). rewrite <- (name_unique h m t R j u g Gk Fg). exact (name_unique h m t R j n g Gj Fg).
  - clear - Fm. induction Fm as [|k u l us Gk Fm IH]; intros n []; [subst; eauto|auto].
Qed.
Lemma said_other i f l a x y o : option_calls h m i f l -> f_name f <> a -> x = CBin o (CFeat (Own a)) y -> count_occ expr_dec (said l) x = 0.
Proof.
  intros O N ->. apply count_occ_not_In. destruct (said_list o i f l O) as (im & ex & -> & _). intros X. apply in_app_iff in X. destruct X as [X|X]; apply in_map_iff in X; destruct X as (n & X & _); congruence.
Qed.
Lemma said_at a i x y o : get_feature m a = Some i -> x = CBin o (CFeat (Own a)) y -> exists f l, feature_at h i = Some f /\ f_name f = a /\ option_calls h m i f l /\ count_occ expr_dec (said (List.concat ls)) x = count_occ expr_dec (said l) x.
Proof.
  intros G X. assert (I : In i ids) by (apply (Permutation_in _ (Permutation_sym Pi)), (in_ids h m t R _ _ G)).
  assert (Z : forall js ks, Forall2 (calls_at h m) js ks -> (forall j, In j js -> j <> i /\ In j ids) -> count_occ expr_dec (said (List.concat ks)) x = 0).
  { intros js ks Y. induction Y as [|j l js ks (f & F & O) Y IH]; intros Q; [reflexivity|]. cbn [List.concat]. rewrite said_app, count_occ_app, (IH (fun k J => Q k (or_intror J))), Nat.add_0_r.
    apply (said_other j f l a x y o O); [|exact X]. intros E. destruct (Q j (or_introl eq_refl)) as (Nj & Ij). apply Nj. destruct (id_data h m t R j (Permutation_in _ Pi Ij)) as (g & Fg & Gg). assert (g = f) as -> by congruence. congruence. }
  assert (S : forall js ks, Forall2 (calls_at h m) js ks -> NoDup js -> incl js ids -> In i js -> exists f l, feature_at h i = Some f /\ option_calls h m i f l /\ count_occ expr_dec (said (List.concat ks)) x = count_occ expr_dec (said l) x).
  { intros js ks Y. induction Y as [|j l js ks (f & F & O) Y IH]; intros N Q J; [destruct J|]. apply NoDup_cons_iff in N. destruct N as (N1 & N2). cbn [List.concat]. rewrite said_app, count_occ_app. destruct (Nat.eq_dec j i) as [->|Nj].
    - exists f, l. split; [exact F|]. split; [exact O|]. rewrite (Z js ks Y); [lia|]. intros k K. split; [intros ->; contradiction|apply Q; right; exact K].
    - destruct J as [J|J]; [contradiction|]. destruct (IH N2 (fun k K => Q k (or_intror K)) J) as (f' & l' & F' & O' & E). exists f', l'. split; [exact F'|]. split; [exact O'|]. rewrite E, (said_other j f l a x y o O); [reflexivity| |exact X].
      intros Ef. apply Nj. destruct (id_data h m t R j (Permutation_in _ Pi (Q j (or_introl eq_refl)))) as (g & Fg & Gg). assert (g = f) as -> by congruence. congruence. }
  destruct (S ids ls Ca Ni (incl_refl _) I) as (f & l & F & O & E). exists f, l. split; [exact F|]. split; [|auto]. exact (name_unique h m t R i a f G F).
Qed.
Lemma count_map {A B} (da : forall a b : A, {a = b} + {a <> b}) (db : forall a b : B, {a = b} + {a <> b}) (g : A -> B) (x : A) l : (forall a b, g a = g b -> a = b) -> count_occ db (map g l) (g x) = count_occ da l x.
Proof. intros J. induction l as [|a l IH]; [reflexivity|]. cbn [map count_occ]. rewrite IH. destruct (db (g a) (g x)) as [E|N], (da a x) as [E'|N']; try reflexivity; [destruct (N' (J _ _ E))|subst; contradiction]. Qed.
Lemma count_none {A B} (db : forall a b : B, {a = b} + {a <> b}) (g : A -> B) (x : B) l : (forall a, g a <> x) -> count_occ db (map g l) x = 0.
Proof. intros J. apply count_occ_not_In. intros X. apply in_map_iff in X. destruct X as (a & E & _). exact (J a E). Qed.
Lemma said_implies a b : exists n, times h (all_constraints m) (implying a b) n /\ count_occ expr_dec (said (List.concat ls)) (CBin BImplies (CFeat (Own (T a))) (CFeat (Own (T b)))) = (if text_eqb (T a) (T b) then 2 else 1) * n.
Proof.
  assert (Inj : forall u : text, forall x y, CBin BImplies (CFeat (Own u)) (CFeat (Own x)) = CBin BImplies (CFeat (Own u)) (CFeat (Own y)) -> x = y) by (intros; congruence).
  destruct (get_feature m (T a)) as [i|] eqn:Ga.
  - destruct (said_at (T a) i _ (CFeat (Own (T b))) BImplies Ga eq_refl) as (f & l & F & Nf & O & ->). destruct (said_list BImplies i f l O) as (im & ex & -> & _ & Cn & Kn). rewrite Nf in *. specialize (Cn Ga F eq_refl).
    rewrite count_occ_app, (count_map text_dec expr_dec (fun n => CBin BImplies (CFeat (Own (T a))) (CFeat (Own n))) (T b) im (Inj (T a))), (count_none expr_dec), Nat.add_0_r by discriminate.
    destruct (get_feature m (T b)) as [j|] eqn:Gb.
    + exists (List.length (filter (target i j) (all_constraints m))). split; [exact (times_target a b i j Ga Gb)|]. rewrite (Cn _ j Gb). f_equal. destruct (Nat.eqb_spec i j) as [->|N].
      * assert (T a = T b) as ->; [|assert (text_eqb (T b) (T b) = true) as -> by (apply text_eqb_eq; reflexivity); reflexivity]. destruct (id_data h m t R j (in_ids h m t R _ _ Gb)) as (g & Fg & _). rewrite <- (name_unique h m t R j (T b) g Gb Fg). symmetry. exact (name_unique h m t R j (T a) g Ga Fg).
      * destruct (text_eqb (T a) (T b)) eqn:E; [apply text_eqb_eq in E; congruence|reflexivity].
    + exists 0. split; [apply times_unknown; intros; congruence|]. rewrite Nat.mul_0_r. apply count_occ_not_In. intros X. destruct (Kn _ X). congruence.
  - exists 0. split; [apply times_unknown; intros; congruence|]. rewrite Nat.mul_0_r. apply count_occ_not_In. intros X.
    assert (Q : forall js ks, Forall2 (calls_at h m) js ks -> incl js ids -> ~ In (CBin BImplies (CFeat (Own (T a))) (CFeat (Own (T b)))) (said (List.concat ks))).
    { intros js ks Y. induction Y as [|j l js ks (f & F & O) Y IH]; intros Q J; [destruct J|]. cbn [List.concat] in J. rewrite said_app in J. apply in_app_iff in J. destruct J as [J|J]; [|exact (IH (fun k K => Q k (or_intror K)) J)].
      destruct (said_list BImplies j f l O) as (im & ex & E & _). rewrite E in J. destruct (id_data h m t R j (Permutation_in _ Pi (Q j (or_introl eq_refl)))) as (g & Fg & Gg). assert (g = f) as -> by congruence. apply in_app_iff in J. destruct J as [J|J]; apply in_map_iff in J; destruct J as (n & J & _); congruence. }
    exact (Q ids ls Ca (incl_refl _) X).
Qed.
Lemma said_excludes a b : count_occ expr_dec (said (List.concat ls)) (CBin BExcludes (CFeat (Own (T a))) (CFeat (Own (T b)))) <= 1.
Proof.
  destruct (get_feature m (T a)) as [i|] eqn:Ga.
  - destruct (said_at (T a) i _ (CFeat (Own (T b))) BExcludes Ga eq_refl) as (f & l & F & Nf & O & ->). destruct (said_list BImplies i f l O) as (im & ex & -> & Nx & _ & _). rewrite Nf.
    rewrite count_occ_app, (count_none expr_dec) by discriminate. rewrite (count_map text_dec expr_dec (fun n => CBin BExcludes (CFeat (Own (T a))) (CFeat (Own n))) (T b) ex) by congruence. cbn [plus]. apply NoDup_count_occ. exact Nx.
  - assert (Q : forall js ks, Forall2 (calls_at h m) js ks -> incl js ids -> ~ In (CBin BExcludes (CFeat (Own (T a))) (CFeat (Own (T b)))) (said (List.concat ks))).
    { intros js ks Y. induction Y as [|j l js ks (f & F & O) Y IH]; intros Q J; [destruct J|]. cbn [List.concat] in J. rewrite said_app in J. apply in_app_iff in J. destruct J as [J|J]; [|exact (IH (fun k K => Q k (or_intror K)) J)].
      destruct (said_list BImplies j f l O) as (im & ex & E & _). rewrite E in J. destruct (id_data h m t R j (Permutation_in _ Pi (Q j (or_introl eq_refl)))) as (g & Fg & Gg). assert (g = f) as -> by congruence. apply in_app_iff in J. destruct J as [J|J]; apply in_map_iff in J; destruct J as (n & J & _); congruence. }
    rewrite (proj1 (count_occ_not_In _ _ _) (Q ids ls Ca (incl_refl _))). lia.
Qed.
Lemma said_pairs x : In x (said (List.concat ls)) -> pair x.
Proof.
  intros I. assert (Q : forall js ks, Forall2 (calls_at h m) js ks -> In x (said (List.concat ks)) -> pair x); [|exact (Q ids ls Ca I)].
  intros js ks Y. induction Y as [|j l js ks (f & F & O) Y IH]; intros J; [destruct J|]. cbn [List.concat] in J. rewrite said_app in J. apply in_app_iff in J. destruct J as [J|J]; [|exact (IH J)].
  destruct (said_list BImplies j f l O) as (im & ex & E & _). rewrite E in J. apply in_app_iff in J. destruct J as [J|J]; apply in_map_iff in J; destruct J as (n & <- & _); eexists _, _, _; (split; [|reflexivity]); auto.
Qed.

(** ** The model read back *)
Variables (h' : heap) (m' : fmodel) (ys zs : list mconstraint).
Hypothesis E' : m_boolean m' = ys ++ zs.
Hypothesis Fy : Forall2 (fun x c => forall e, spelled h' (c_expr c) e <-> x = named_leaves e) (said (List.concat ls)) ys.
Hypothesis Fz : Forall2 (constraint_back h h') (others m) zs.
Lemma times_ys e : times h' ys e (count_occ expr_dec (said (List.concat ls)) (named_leaves e)).
Proof.
  clear - Fy. induction Fy as [|x c l k X F IH]; [constructor|]. cbn [count_occ]. destruct (expr_dec x (named_leaves e)) as [E|N]; [apply times_one; [apply X; exact E|exact (IH F)]|apply times_other; [rewrite X; exact N|exact (IH F)]].
Qed.
Lemma other_pair c : In c zs -> ~ pair (c_expr c).
Proof.
  intros I P. destruct (XmlDetectFinal.forall2_right _ _ _ Fz c I) as (d & Id & (e & Sd & Sc)). apply filter_In in Id. destruct Id as (_ & Np). apply (spelled_pair h' _ _ Sc) in P.
  pose proof (XmlCycleProofs.implies_pair e P) as Q. rewrite Q in P.
  apply (spelled_pair h _ _ Sd) in P. apply is_pair_iff in P. rewrite P in Np. discriminate.
Qed.
Lemma times_zs e : pair e -> times h' zs e 0.
Proof.
  intros P. assert (N := other_pair). revert N. generalize zs. intros l. induction l as [|c l IH]; intros N; [constructor|]. apply times_other; [|apply IH; intros d I; apply N; right; exact I].
  intros S. exact (N c (or_introl eq_refl) (proj2 (spelled_pair h' _ _ S) P)).
Qed.
Lemma times_boolean e : pair e -> times h' (m_boolean m') e (count_occ expr_dec (said (List.concat ls)) (named_leaves e)).
Proof. intros P. rewrite E', <- (Nat.add_0_r (count_occ _ _ _)). apply times_app; [apply times_ys|exact (times_zs e P)]. Qed.
Lemma unpaired_pairs l : forall k r, (forall c, In c l -> pair (c_expr c)) -> unpaired (l ++ k) r -> unpaired k r.
Proof. induction l as [|c l IH]; intros k r N X; [exact X|]. cbn [app] in X. inversion X as [|? ? ? P X'|? ? ? P X']; subst; [exact (IH k r (fun d I => N d (or_intror I)) X')|]. destruct P. apply N. left. reflexivity. Qed.
Lemma unpaired_filter l r : unpaired l r -> r = filter (fun c => negb (is_pair (c_expr c))) l.
Proof.
  intros X. induction X as [|c l k P X IH|c l k P X IH]; [reflexivity| |]; cbn [filter].
  - apply is_pair_iff in P. rewrite P. exact IH.
  - destruct (is_pair (c_expr c)) eqn:E; [apply is_pair_iff in E; contradiction|]. cbn [negb]. f_equal. exact IH.
Qed.
Lemma counted : counts_back h m h' m'.
Proof.
  constructor.
  - intros a b n N X. destruct (said_implies a b) as (n' & X' & C). pose proof (times_unique _ _ _ _ X _ X') as <-. assert (text_eqb (T a) (T b) = false) as Eq by (destruct (text_eqb (T a) (T b)) eqn:Q; [apply text_eqb_eq, T_inj in Q; contradiction|reflexivity]).
    rewrite Eq, Nat.mul_1_l in C. pose proof (times_boolean (implying a b)) as Y. cbn [implying named_leaves] in Y. rewrite C in Y. apply Y. eexists _, _, _. split; [left; reflexivity|reflexivity].
  - intros a n X. destruct (said_implies a a) as (n' & X' & C). pose proof (times_unique _ _ _ _ X _ X') as <-. assert (text_eqb (T a) (T a) = true) as Eq by (apply text_eqb_eq; reflexivity).
    rewrite Eq in C. pose proof (times_boolean (implying a a)) as Y. cbn [implying named_leaves] in Y. rewrite C in Y. apply Y. eexists _, _, _. split; [left; reflexivity|reflexivity].
  - intros a b S. pose proof (times_boolean (excluding_text a b)) as Y. cbn [excluding_text named_leaves] in Y. specialize (Y (ex_intro _ BExcludes (ex_intro _ a (ex_intro _ b (conj (or_intror eq_refl) eq_refl))))).
    pose proof (said_excludes a b) as L. apply (times_stated _ _ _ _ Y) in S. assert (count_occ expr_dec (said (List.concat ls)) (CBin BExcludes (CFeat (Own (T a))) (CFeat (Own (T b)))) = 1) as Q by lia. rewrite Q in Y. exact Y.
  - intros l l' Un U'. apply unpaired_filter in Un. rewrite E' in U'. apply unpaired_pairs in U'.
    + assert (l' = zs) as ->.
      { pose proof other_pair as N. clear - U' N. apply unpaired_filter in U'. subst l'. induction zs as [|c k IH]; [reflexivity|]. cbn [filter]. destruct (is_pair (c_expr c)) eqn:Q; [apply is_pair_iff in Q; destruct (N c (or_introl eq_refl) Q)|]. cbn [negb]. f_equal. apply IH. intros d I. apply N. right. exact I. }
      subst l. exact Fz.
    + intros c I. destruct (XmlDetectFinal.forall2_right _ _ _ Fy c I) as (x & Ix & Sx). pose proof (said_pairs x Ix) as P. destruct P as (o & a & b & Ho & ->).
      assert (exists u v, a = Own u /\ b = Own v) as (u & v & -> & ->).
      { assert (Q : forall js ks, Forall2 (calls_at h m) js ks -> In (CBin o (CFeat a) (CFeat b)) (said (List.concat ks)) -> exists u v, a = Own u /\ b = Own v); [|exact (Q ids ls Ca Ix)].
        intros js ks Y. induction Y as [|j l0 js ks (f & F & O) Y IH]; intros J; [destruct J|]. cbn [List.concat] in J. rewrite said_app in J. apply in_app_iff in J. destruct J as [J|J]; [|exact (IH J)].
        destruct (said_list BImplies j f l0 O) as (im & ex & E & _). rewrite E in J. apply in_app_iff in J. destruct J as [J|J]; apply in_map_iff in J; destruct J as (n & J & _); injection J as _ <- <-; eauto. }
      assert (spelled h' (c_expr c) (CBin o (CFeat (U u)) (CFeat (U v)))) as S by (apply Sx; cbn [named_leaves]; rewrite !T_U; reflexivity).
      apply (spelled_pair h' _ _ S). eexists _, _, _. split; [exact Ho|reflexivity].
Qed.
End Written.
