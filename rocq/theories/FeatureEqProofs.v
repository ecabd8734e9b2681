(** Equality and hash of features. *)
From Coq Require Import List Arith Bool Ascii String Permutation Lia.
From Verif Require Import Text TextProofs FeatureTreeModel FeatureTreeSpec FeatureTreeProofs FeatureOrderProofs FeatureTreeFinal FeatureEditSpec FeatureEditProofs FeatureTransactionSpec XmlDetectProofs XmlTripCalls XmlTripWrite XmlTripFinal SolverEncodingProofs FeatureEqModel FeatureEqSpec.
Import ListNotations.

Definition ascii_all (P : ascii -> bool) : bool := forallb (fun k => P (ascii_of_nat k)) (seq 0 256).
Lemma ascii_all_ok P : ascii_all P = true -> forall c, P c = true.
Proof.
  intros H c. unfold ascii_all in H. rewrite forallb_forall in H. rewrite <- (ascii_nat_embedding c). apply H, in_seq. pose proof (nat_ascii_bounded c). lia.
Qed.
Lemma lower_upper k : k < 26 -> to_lower (ascii_of_nat (65 + k)) = ascii_of_nat (97 + k).
Proof. intros L. do 26 (destruct k as [|k]; [reflexivity|]). lia. Qed.
Lemma lower_lower k : k < 26 -> to_lower (ascii_of_nat (97 + k)) = ascii_of_nat (97 + k).
Proof. intros L. do 26 (destruct k as [|k]; [reflexivity|]). lia. Qed.
Lemma lower_cases c : to_lower c = c \/ exists k, k < 26 /\ c = ascii_of_nat (65 + k) /\ to_lower c = ascii_of_nat (97 + k).
Proof.
  unfold to_lower. destruct (is_upper c) eqn:E; [right|auto]. unfold is_upper in E. rewrite andb_true_iff, !Nat.leb_le in E. exists (code c - 65). split; [lia|]. unfold code in *. split.
  - replace (65 + (nat_of_ascii c - 65)) with (nat_of_ascii c) by lia. symmetry. apply ascii_nat_embedding.
  - f_equal. lia.
Qed.
Lemma same_letter_lower c d : same_letter c d <-> to_lower c = to_lower d.
Proof.
  split.
  - intros [->|(k & L & C & D)]; [reflexivity|]. assert (to_lower c = ascii_of_nat (97 + k)) as -> by (destruct C as [-> | ->]; [apply lower_upper|apply lower_lower]; exact L).
    destruct D as [-> | ->]; symmetry; [apply lower_upper|apply lower_lower]; exact L.
  - intros E. destruct (lower_cases c) as [C|(k & L & C & C')]; destruct (lower_cases d) as [D|(k' & L' & D & D')].
    + left. congruence.
    + right. exists k'. split; [exact L'|]. split; [right; congruence|left; exact D].
    + right. exists k. split; [exact L|]. split; [left; exact C|right; congruence].
    + right. exists k. split; [exact L|]. split; [left; exact C|]. left. rewrite D. f_equal. f_equal. rewrite C', D' in E. apply (f_equal nat_of_ascii) in E. rewrite !nat_ascii_embedding in E by lia. lia.
Qed.
Lemma same_but_case_lower s u : same_but_case s u <-> lower s = lower u.
Proof.
  unfold same_but_case, lower. split.
  - intros F. induction F as [|c d s u X F IH]; [reflexivity|]. cbn [map]. rewrite IH. f_equal. apply same_letter_lower. exact X.
  - revert u. induction s as [|c s IH]; intros [|d u] E; try discriminate; constructor; injection E as E1 E2; [apply same_letter_lower; exact E1|apply IH; exact E2].
Qed.

(** ** Equality *)
Lemma lower_some h a f : feature_at h a = Some f -> lower_at h a = Some (lower (f_name f)).
Proof. intros F. unfold lower_at, name_at. rewrite F. reflexivity. Qed.
Theorem equal_names h a b f g : feature_at h a = Some f -> feature_at h b = Some g ->
  exists r, feature_equal h a b = Some r /\ feature_unequal h a b = Some (negb r) /\ (r = true <-> same_but_case (f_name f) (f_name g)).
Proof.
  intros F G. unfold feature_unequal, feature_equal. rewrite (lower_some h a f F), (lower_some h b g G). cbn [bind]. eexists. split; [reflexivity|]. split; [reflexivity|]. rewrite text_eqb_eq, same_but_case_lower. reflexivity.
Qed.
Lemma equal_iff h a b f g : feature_at h a = Some f -> feature_at h b = Some g -> (feature_equal h a b = Some true <-> lower (f_name f) = lower (f_name g)).
Proof. intros F G. destruct (equal_names h a b f g F G) as (r & E & _ & X). rewrite E, <- same_but_case_lower, <- X. split; [intros Y; injection Y; auto|intros ->; reflexivity]. Qed.
Theorem equivalence hash h a b c f g k : feature_at h a = Some f -> feature_at h b = Some g -> feature_at h c = Some k ->
  feature_equal h a a = Some true /\ feature_equal h a b = feature_equal h b a /\
  (feature_equal h a b = Some true -> feature_equal h b c = Some true -> feature_equal h a c = Some true) /\
  (feature_equal h a b = Some true -> feature_hash hash h a = feature_hash hash h b).
Proof.
  intros F G K. split; [apply (equal_iff h a a f f F F); reflexivity|]. split.
  - unfold feature_equal. rewrite (lower_some h a f F), (lower_some h b g G). cbn [bind]. f_equal. apply eq_true_iff_eq. rewrite !text_eqb_eq. split; congruence.
  - rewrite (equal_iff h a b f g F G), (equal_iff h b c g k G K), (equal_iff h a c f k F K). split; [congruence|]. intros E. unfold feature_hash. rewrite (lower_some h a f F), (lower_some h b g G), E. reflexivity.
Qed.

(** ** Equality and comparison *)
Lemma nodup_map_in {A B} (f : A -> B) l : NoDup l -> (forall x y, In x l -> In y l -> f x = f y -> x = y) -> NoDup (map f l).
Proof.
  intros N. induction N as [|x l X N IH]; intros I; cbn [map]; constructor.
  - intros J. apply in_map_iff in J. destruct J as (y & E & J). assert (y = x) as -> by (apply I; cbn; auto). contradiction.
  - apply IH. intros a b Ia Ib. apply I; cbn; auto.
Qed.
Lemma own_id u : In (rid u) (ids u).
Proof. destruct u. cbn. auto. Qed.
Lemma same_id_tree ts u v : NoDup (flat_map ids ts) -> In u ts -> In v ts -> rid u = rid v -> u = v.
Proof.
  induction ts as [|w ts IH]; intros N Iu Iv E; [destruct Iu|]. cbn [flat_map] in N. destruct (nodup_parts _ _ N) as (_ & N2 & N3).
  assert (No : forall x, In x ts -> rid w <> rid x).
  { intros x Ix X. apply (N3 (rid w) (own_id w)). rewrite X. apply in_flat_map. exists x. split; [exact Ix|apply own_id]. }
  destruct Iu as [<-|Iu], Iv as [<-|Iv]; [reflexivity|destruct (No v Iv E)|destruct (No u Iu (eq_sym E))|]. apply IH; auto.
Qed.
Lemma nodup_trees ts : NoDup (flat_map ids ts) -> NoDup ts.
Proof.
  induction ts as [|w ts IH]; intros N; constructor; cbn [flat_map] in N; destruct (nodup_parts _ _ N) as (_ & N2 & N3); [|auto].
  intros I. apply (N3 (rid w) (own_id w)). apply in_flat_map. exists w. split; [exact I|apply own_id].
Qed.
Lemma distinct_tree h m t : represents h m t -> case_distinct m -> distinct_siblings t.
Proof.
  intros R D s S1 _. pose proof (subtree_nodup _ _ S1 (rep_ids _ _ _ R)) as N. destruct s as [n d ts]. cbn [kids ids] in *. apply NoDup_cons_iff in N. pose proof (near_nodup ts (proj2 N)) as Nn.
  apply nodup_map_in; [exact (nodup_trees _ Nn)|]. intros u v Iu Iv E. apply (same_id_tree _ u v Nn Iu Iv).
  assert (X : forall w, In w (near ts) -> exists f, rdata w = NFeature f /\ tname w = f_name f /\ get_feature m (f_name f) = Some (rid w)).
  { intros w Iw. pose proof (near_feature ts w Iw) as Fw. assert (Sw : subtree w t) by exact (subtree_trans _ _ _ (near_subtree n d ts w Iw) S1). destruct (rdata w) as [f|] eqn:Dw; [|discriminate]. exists f. split; [reflexivity|]. split; [unfold tname; rewrite Dw; reflexivity|].
    assert (Im : In (rid w) (feature_ids t)) by (apply SolverEncodingProofs.feature_ids_subtree; exists w; rewrite Dw; auto).
    destruct (id_data h m t R (rid w) Im) as (f' & F' & G'). destruct (rep_cell R w Sw) as (o & C). unfold feature_at in F'. rewrite C in F'. cbn in F'. rewrite Dw in F'. congruence. }
  destruct (X u Iu) as (f & _ & Tf & Gf). destruct (X v Iv) as (g & _ & Tg & Gg). unfold lname in E. rewrite Tf, Tg in E. apply same_but_case_lower in E. pose proof (D _ _ _ _ Gf Gg E). congruence.
Qed.
Theorem one_of_three h m t s u a b : represents h m t -> case_distinct m -> get_feature m s = Some a -> get_feature m u = Some b ->
  (feature_equal h a b = Some true /\ feature_less h a b = Some false /\ feature_less h b a = Some false /\ a = b) \/
  (feature_equal h a b = Some false /\ feature_less h a b = Some true /\ feature_less h b a = Some false /\ a <> b) \/
  (feature_equal h a b = Some false /\ feature_less h a b = Some false /\ feature_less h b a = Some true /\ a <> b).
Proof.
  intros R D Ga Gb. pose proof (distinct_tree h m t R D) as Ds. pose proof (in_ids h m t R _ _ Ga) as Ia. pose proof (in_ids h m t R _ _ Gb) as Ib.
  destruct (names_data h m t R s a Ga) as (f & F & Nf). destruct (names_data h m t R u b Gb) as (g & G & Ng).
  pose proof (fun x y z => comparison_strict_total h t x y z (rep_ok _ _ _ R) (rep_holds _ _ _ R) (rep_ids _ _ _ R) (rep_top_feature h m t R) Ds) as Tot.
  destruct (Nat.eq_dec a b) as [<-|N].
  - left. destruct (Tot a a a Ia Ia Ia) as (Irr & _ & _). split; [apply (equal_iff h a a f f F F); reflexivity|auto].
  - right. assert (E : feature_equal h a b = Some false).
    { destruct (equal_names h a b f g F G) as (r & E & _ & X). rewrite E. destruct r; [|reflexivity]. exfalso. apply N. pose proof (proj1 X eq_refl) as Y. rewrite Nf, Ng in Y. pose proof (D _ _ _ _ Ga Gb Y). congruence. }
    destruct (iterate_features (fun l => l) h t (fun l => Permutation_refl l) (rep_ok _ _ _ R) (rep_holds _ _ _ R) (rep_ids _ _ _ R) (rep_top_feature h m t R)) as (l & It & _). specialize (It (S (h_next h)) (Nat.lt_succ_diag_r _)).
    destruct (comparison_is_iteration_order (fun l => l) h t l a b (fun l => Permutation_refl l) (rep_ok _ _ _ R) (rep_holds _ _ _ R) (rep_ids _ _ _ R) (rep_top_feature h m t R) Ds It Ia Ib) as (r & Er & _).
    destruct (comparison_is_iteration_order (fun l => l) h t l b a (fun l => Permutation_refl l) (rep_ok _ _ _ R) (rep_holds _ _ _ R) (rep_ids _ _ _ R) (rep_top_feature h m t R) Ds It Ib Ia) as (r' & Er' & _).
    destruct (Tot a b a Ia Ib Ia) as (Irr & Tr & Tri). rewrite Er, Er' in *. destruct r, r'; [specialize (Tr eq_refl eq_refl); congruence|left; auto|right; auto|destruct Tri as [X|[X|X]]; congruence].
Qed.

(** ** Sets in Python *)
Section Sets.
Variables (hash : text -> nat) (h : heap).
Lemma equal_spec a b : live h a -> live h b -> exists r, feature_equal h a b = Some r /\ (r = true <-> namesakes h a b).
Proof.
  intros (f & F) (g & G). destruct (equal_names h a b f g F G) as (r & E & _ & X). exists r. split; [exact E|]. rewrite X. unfold namesakes. split; [eauto|]. intros (f' & g' & F' & G' & Y). congruence.
Qed.
Lemma namesakes_lower a b f g : feature_at h a = Some f -> feature_at h b = Some g -> (namesakes h a b <-> lower (f_name f) = lower (f_name g)).
Proof. intros F G. rewrite <- same_but_case_lower. unfold namesakes. split; [intros (f' & g' & F' & G' & Y); congruence|eauto]. Qed.
Lemma member_spec s x : Forall (live h) s -> live h x -> exists b, py_member hash h s x = Some b /\ (b = true <-> exists y, In y s /\ namesakes h y x).
Proof.
  intros Fs (f & F). induction Fs as [|y s (g & G) Fs IH]; cbn [py_member].
  - exists false. split; [reflexivity|]. split; [discriminate|intros (y & [] & _)].
  - unfold feature_hash at 1 2. rewrite (lower_some h y g G), (lower_some h x f F). cbn [bind]. destruct (equal_names h y x g f G F) as (r & E & _ & X). rewrite E. cbn [bind]. destruct IH as (b & Em & Xb).
    destruct (Nat.eqb (hash (lower (f_name g))) (hash (lower (f_name f))) && (Nat.eqb y x || r)) eqn:Q.
    + exists true. split; [reflexivity|]. split; [intros _|reflexivity]. exists y. split; [left; reflexivity|]. apply andb_true_iff in Q. destruct Q as (_ & Q). apply orb_true_iff in Q. apply (namesakes_lower y x g f G F).
      destruct Q as [Q|Q]; [apply Nat.eqb_eq in Q; subst y; congruence|]. apply same_but_case_lower, X. exact Q.
    + exists b. split; [exact Em|]. rewrite Xb. split; [intros (z & I & Y); exists z; cbn; auto|]. intros (z & [<-|I] & Y); [|eauto]. exfalso. apply (namesakes_lower y x g f G F) in Y. rewrite Y, Nat.eqb_refl in Q. cbn [andb] in Q.
      apply orb_false_iff in Q. destruct Q as (_ & ->). apply same_but_case_lower, X in Y. discriminate.
Qed.
Lemma namesakes_sym a b : namesakes h a b -> namesakes h b a.
Proof. intros (f & g & F & G & Y). exists g, f. split; [exact G|]. split; [exact F|]. apply same_but_case_lower. symmetry. apply same_but_case_lower. exact Y. Qed.
Lemma namesakes_trans a b c : namesakes h a b -> namesakes h b c -> namesakes h a c.
Proof. intros (f & g & F & G & Y) (g' & k & G' & K & Z). assert (g' = g) as -> by congruence. exists f, k. split; [exact F|]. split; [exact K|]. apply same_but_case_lower. apply same_but_case_lower in Y, Z. congruence. Qed.
Lemma apart_snoc s x : apart_all h s -> (forall y, In y s -> ~ namesakes h y x) -> apart_all h (s ++ [x]).
Proof.
  intros A N a b p q r E. destruct r as [|c r _] using rev_ind.
  - rewrite app_comm_cons, app_assoc in E. apply app_inj_tail in E. destruct E as (-> & ->). apply N. apply in_or_app. right. left. reflexivity.
  - apply (A a b p q r). change (b :: r ++ [c]) with ((b :: r) ++ [c]) in E. rewrite app_assoc, app_comm_cons, app_assoc in E. apply app_inj_tail in E. apply E.
Qed.
Theorem set_of_features : forall xs s, Forall (live h) s -> Forall (live h) xs -> apart_all h s -> exists r, py_set hash h s xs = Some r /\ apart_all h r /\
  (forall x, In x r -> In x s \/ In x xs) /\ (forall x, In x s \/ In x xs -> exists y, In y r /\ namesakes h y x).
Proof.
  induction xs as [|x xs IH]; intros s Fs Fx A.
  - exists s. split; [reflexivity|]. split; [exact A|]. split; [auto|]. intros x [I|[]]. exists x. split; [exact I|]. rewrite Forall_forall in Fs. destruct (Fs x I) as (f & F). apply (namesakes_lower x x f f F F). reflexivity.
  - inversion Fx as [|? ? Lx Fx']; subst. destruct (member_spec s x Fs Lx) as (b & E & X). cbn [py_set]. unfold py_add. rewrite E. cbn [bind]. destruct b.
    + destruct (IH s Fs Fx' A) as (r & Er & Ar & In1 & In2). exists r. split; [exact Er|]. split; [exact Ar|]. split; [intros z I; destruct (In1 z I); cbn; auto|].
      intros z [I|[<-|I]]; [apply In2; auto| |apply In2; auto]. destruct (proj1 X eq_refl) as (y & Iy & Ny). destruct (In2 y (or_introl Iy)) as (w & Iw & Nw). exists w. split; [exact Iw|]. exact (namesakes_trans _ _ _ Nw Ny).
    + assert (A' : apart_all h (s ++ [x])) by (apply apart_snoc; [exact A|]; intros y I N; assert (false = true) as Y by (apply X; eauto); discriminate).
      destruct (IH (s ++ [x])) as (r & Er & Ar & In1 & In2); [apply Forall_app; auto|exact Fx'|exact A'|]. exists r. split; [exact Er|]. split; [exact Ar|]. split.
      * intros z I. destruct (In1 z I) as [J|J]; [|cbn; auto]. apply in_app_or in J. destruct J as [J|[<-|[]]]; cbn; auto.
      * intros z I. apply In2. rewrite in_app_iff. cbn in *. tauto.
Qed.
End Sets.
Theorem python_set hash h xs : Forall (live h) xs -> exists r, py_set hash h [] xs = Some r /\ apart_all h r /\ incl r xs /\ (forall x, In x xs -> exists y, In y r /\ namesakes h y x).
Proof.
  intros F. destruct (set_of_features hash h xs []) as (r & E & A & I1 & I2); [constructor|exact F|intros a b [|] y z E; discriminate|]. exists r. split; [exact E|]. split; [exact A|]. split; [intros x I; destruct (I1 x I) as [[]|J]; exact J|]. intros x I. apply I2. auto.
Qed.

Lemma apart_nodup h xs : Forall (live h) xs -> apart_all h xs -> NoDup xs.
Proof.
  intros F A. induction F as [|x xs (f & E) F IH]; constructor.
  - intros I. destruct (in_split _ _ I) as (p & q & ->). apply (A x x [] p q eq_refl). exists f, f. split; [exact E|]. split; [exact E|]. apply same_but_case_lower. reflexivity.
  - apply IH. intros a b p q r ->. apply (A a b (x :: p) q r). reflexivity.
Qed.
Theorem model_set hash h m t xs : represents h m t -> case_distinct m -> NoDup xs -> (forall x, In x xs -> exists s, get_feature m s = Some x) ->
  exists r, py_set hash h [] xs = Some r /\ Permutation r xs.
Proof.
  intros R D N M. assert (L : Forall (live h) xs) by (rewrite Forall_forall; intros x I; destruct (M x I) as (s & G); destruct (names_data h m t R s x G) as (f & F & _); exists f; exact F).
  destruct (python_set hash h xs L) as (r & E & A & I & J). exists r. split; [exact E|]. apply NoDup_Permutation; [apply (apart_nodup h); [rewrite Forall_forall in *; auto|exact A]|exact N|]. intros x. split; [apply I|]. intros Ix.
  destruct (J x Ix) as (y & Iy & f & g & F & G & Y). destruct (M x Ix) as (s & Gx). destruct (M y (I y Iy)) as (u & Gy). assert (y = x) as -> by (rewrite (name_unique h m t R y u f Gy F), (name_unique h m t R x s g Gx G) in Y; pose proof (D _ _ _ _ Gy Gx Y); congruence). exact Iy.
Qed.
