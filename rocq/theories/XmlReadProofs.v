(** Reading a document is making the calls it stands for. *)
From Coq Require Import List ZArith NArith Arith Bool Ascii String Permutation Lia.
From Verif Require Import Text TextProofs LlvmInt ConstraintModel ConstraintParserModel ConstraintSpec SourceRangeModel StepFunctionModel FeatureTreeModel FeatureTreeSpec
  FeatureTransactionModel FeatureTransactionSpec FeatureEditSpec FeatureBuildSpec SxfmModel XmlModel XmlSpec.
Import ListNotations.
Local Open Scope string_scope.
Local Open Scope list_scope.
Local Open Scope nat_scope.

(** ** The document type *)
Inductive matches : particle -> list text -> Prop :=
| mt_tag s : matches (PTag s) [T s]
| mt_many s n : matches (PMany s) (repeat (T s) n)
| mt_none p : matches (PMaybe p) []
| mt_some p l : matches p l -> matches (PMaybe p) l
| mt_seq p q a b : matches p a -> matches q b -> matches (PSeq p q) (a ++ b)
| mt_left p q l : matches p l -> matches (PAlt p q) l
| mt_right p q l : matches q l -> matches (PAlt p q) l.

Lemma eat_matches p : forall l r, In r (eat p l) -> exists a, l = a ++ r /\ matches p a.
Proof.
  induction p as [s|s|p IH|p IHp q IHq|p IHp q IHq]; intros l r I; cbn [eat] in I.
  - destruct l as [|x l]; [destruct I|]. destruct (text_eqb x (T s)) eqn:E; [|destruct I]. apply text_eqb_eq in E. destruct I as [<-|[]]. subst x. exists [T s]. split; [reflexivity|constructor].
  - revert I. induction l as [|x l IH]; intros [<-|I]; [exists []; split; [reflexivity|exact (mt_many s 0)]|destruct I|exists []; split; [reflexivity|exact (mt_many s 0)]|].
    destruct (text_eqb x (T s)) eqn:E; [|destruct I]. apply text_eqb_eq in E. subst x. destruct (IH I) as (a & -> & M). exists (T s :: a). split; [reflexivity|].
    inversion M as [|? n| | | | |]; subst. exact (mt_many s (S n)).
  - destruct I as [<-|I]; [exists []; split; [reflexivity|constructor]|]. destruct (IH l r I) as (a & -> & M). exists a. split; [reflexivity|constructor; exact M].
  - apply in_flat_map in I. destruct I as (x & I & J). destruct (IHp l x I) as (a & -> & Ma). destruct (IHq x r J) as (b & -> & Mb). exists (a ++ b). split; [apply app_assoc|constructor; assumption].
  - apply in_app_or in I. destruct I as [I|I]; [destruct (IHp l r I) as (a & -> & M)|destruct (IHq l r I) as (a & -> & M)]; exists a; (split; [reflexivity|]); [apply mt_left|apply mt_right]; exact M.
Qed.
Lemma matches_eat p a : matches p a -> forall r, In r (eat p (a ++ r)).
Proof.
  assert (X : forall s, text_eqb (T s) (T s) = true) by (intros s; apply text_eqb_eq; reflexivity).
  induction 1 as [s|s n|p|p l M IH|p q a b Ma IHa Mb IHb|p q l M IH|p q l M IH]; intros r; cbn [eat].
  - cbn [app]. rewrite X. left. reflexivity.
  - induction n as [|n IH]; cbn [repeat app].
    + destruct r; left; reflexivity.
    + right. rewrite X. exact IH.
  - left. reflexivity.
  - right. apply IH.
  - apply in_flat_map. exists (b ++ r). split; [rewrite <- app_assoc; apply IHa|apply IHb].
  - apply in_or_app. left. apply IH.
  - apply in_or_app. right. apply IH.
Qed.
Lemma fits_matches p l : fits p l = true <-> matches p l.
Proof.
  unfold fits. rewrite existsb_exists. split.
  - intros (r & I & E). destruct r; [|discriminate]. destruct (eat_matches p l [] I) as (a & -> & M). rewrite app_nil_r. exact M.
  - intros M. exists []. split; [|reflexivity]. pose proof (matches_eat p l M []) as I. rewrite app_nil_r in I. exact I.
Qed.

Lemma valid_elem n a b es : valid (Elem n a b es) = true ->
  attributes_ok (Elem n a b es) = true /\ forallb valid es = true /\
  match declaration_of n with None => False | Some OnlyText => es = [] | Some (Below p) => blank b = true /\ matches p (map tag es) end.
Proof.
  cbn [valid]. rewrite !andb_true_iff. intros [[A D] V]. split; [exact A|]. split; [exact V|]. destruct (declaration_of n) as [[|p]|]; [|rewrite andb_true_iff, fits_matches in D; exact D|discriminate].
  destruct es; [reflexivity|discriminate].
Qed.

(** ** Folds that may fail *)
Section Folds.
Context {A B : Type} (f : A -> B -> sx A).
Definition sx_fold (l : list B) (o : sx A) : sx A := fold_left (fun o c => sx_bind o (fun s => f s c)) l o.
Lemma sx_fold_failed l o : (forall a, o <> SxDone a) -> forall a, sx_fold l o <> SxDone a.
Proof.
  revert o. induction l as [|c l IH]; intros o N a; [apply N|]. cbn. apply IH. intros b. destruct o; try discriminate. exfalso. exact (N a0 eq_refl).
Qed.
Lemma sx_fold_cons c l s s' : sx_fold (c :: l) (SxDone s) = SxDone s' <-> exists s1, f s c = SxDone s1 /\ sx_fold l (SxDone s1) = SxDone s'.
Proof.
  cbn [sx_fold fold_left sx_bind]. split.
  - intros E. destruct (f s c) as [s1| | | |] eqn:F; [exists s1; auto| | | |]; exfalso; eapply sx_fold_failed; try exact E; discriminate.
  - intros (s1 & -> & E). exact E.
Qed.
End Folds.
Lemma sx_bind_done {A B} (x : sx A) (f : A -> sx B) b : sx_bind x f = SxDone b <-> exists a, x = SxDone a /\ f a = SxDone b.
Proof. split; [destruct x; try discriminate; eauto|intros (a & -> & E); exact E]. Qed.

(** ** Source ranges *)
Ltac tags := repeat match goal with
  | |- context [text_eqb (T ?a) (T ?b)] => let v := eval vm_compute in (text_eqb (T a) (T b)) in change (text_eqb (T a) (T b)) with v
  | H : context [text_eqb (T ?a) (T ?b)] |- _ => let v := eval vm_compute in (text_eqb (T a) (T b)) in change (text_eqb (T a) (T b)) with v in H
  end.

Lemma matches_seq p q l : matches (PSeq p q) l -> exists a b, l = a ++ b /\ matches p a /\ matches q b.
Proof. inversion 1; subst; eauto. Qed.
Lemma matches_tag s l : matches (PTag s) l -> l = [T s].
Proof. inversion 1; reflexivity. Qed.
Lemma matches_maybe p l : matches (PMaybe p) l -> l = [] \/ matches p l.
Proof. inversion 1; auto. Qed.
Lemma matches_many s l : matches (PMany s) l -> forall x, In x l -> x = T s.
Proof. inversion 1; subst. intros x I. apply repeat_spec in I. exact I. Qed.

Lemma read_location_iff e l : matches (PSeq (PTag "line") (PTag "column")) (map tag (elems e)) ->
  (read_location e = SxDone l <-> position e l).
Proof.
  intros M. apply matches_seq in M. destruct M as (a & b & El & Ma & Mb). apply matches_tag in Ma, Mb. subst a b. cbn [app] in El.
  destruct (elems e) as [|x [|y [|z es]]] eqn:Ee; try discriminate. injection El as Ex Ey. unfold read_location, position. rewrite Ee. cbn [fold_left sx_bind]. unfold is_tag. rewrite Ex, Ey. tags. cbn [sx_bind].
  split.
  - intros E. destruct (atoi (content x)) as [u|] eqn:Eu; [|discriminate]. cbn [sx_bind l_line l_column] in E.
    destruct (atoi (content y)) as [v|] eqn:Ev; [|discriminate]. injection E as <-. exists x, y, u, v. auto.
  - intros (a & b & u & v & Eab & Eu & Ev & ->). injection Eab as <- <-. rewrite Eu. cbn [sx_bind l_line l_column]. rewrite Ev. reflexivity.
Qed.

Lemma last_cons {A} (a : A) l d : last (a :: l) d = last l a.
Proof. revert a d. induction l as [|b l IH]; intros a d; [reflexivity|]. change (last (a :: b :: l) d) with (last (b :: l) d). rewrite !IH. reflexivity. Qed.
Lemma last_app {A} (l r : list A) d : last (l ++ r) d = last r (last l d).
Proof. revert d. induction l as [|a l IH]; intros d; [reflexivity|]. cbn [app]. rewrite !last_cons. apply IH. Qed.

Lemma read_revisions_eq e : read_revisions e = revisions e.
Proof.
  unfold read_revisions, revisions. change (fun s c => let cnt := trim (content c) in _) with (fun (s : text * text) c => if is_tag "introduced" c then (trimmed c, snd s) else if is_tag "removed" c then (fst s, trimmed c) else s).
  assert (X : forall es s, fold_left (fun (s : text * text) c => if is_tag "introduced" c then (trimmed c, snd s) else if is_tag "removed" c then (fst s, trimmed c) else s) es s =
    (last (map trimmed (called "introduced" es)) (fst s), last (map trimmed (called "removed" es)) (snd s))).
  { induction es as [|c es IH]; intros [i r]; [reflexivity|]. cbn [fold_left]. rewrite IH. unfold called. cbn [filter].
    destruct (is_tag "introduced" c) eqn:E1, (is_tag "removed" c) eqn:E2; cbn [map fst snd]; rewrite ?last_cons; try reflexivity.
    exfalso. unfold is_tag in *. apply text_eqb_eq in E1, E2. rewrite E1 in E2. discriminate. }
  rewrite X. cbn [fst snd]. destruct (last (map trimmed (called "removed" (elems e))) []); reflexivity.
Qed.

Definition range_particle : particle := sequence [PMaybe (PTag "revisionRange"); PTag "path"; PTag "start"; PTag "end"] (PMaybe (PTag "memberOffset")).
Lemma category_ok e : tag e = T "sourceRange" -> attributes_ok e = true ->
  read_category e = SxDone (match attr "category" e with Some c => if text_eqb c (T "inessential") then Inessential else Necessary | None => Necessary end).
Proof.
  intros E A. unfold read_category. destruct (attr "category" e) as [c|] eqn:C; [|reflexivity]. unfold attr in C. destruct (find _ _) as [[k v]|] eqn:F; [|discriminate]. injection C as ->.
  apply find_some in F. destruct F as (I & K). cbn [fst snd] in *. apply text_eqb_eq in K. subst k.
  unfold attributes_ok in A. rewrite E in A. apply andb_prop in A. destruct A as [A _]. rewrite forallb_forall in A. specialize (A _ I). cbn [fst snd] in A.
  unfold attribute_declarations in A. tags. cbn [existsb fst snd] in A. tags. cbn [andb] in A. rewrite orb_false_r in A. apply orb_prop in A. rewrite orb_false_r in A. destruct A as [A|A].
  - apply text_eqb_eq in A. subst c. tags. reflexivity.
  - apply text_eqb_eq in A. subst c. tags. reflexivity.
Qed.

Lemma read_range_iff e r : tag e = T "sourceRange" -> valid e = true -> (read_range e = SxDone r <-> ranged e r).
Proof.
  destruct e as [n a b es]. cbn [tag]. intros -> V. apply valid_elem in V. destruct V as (A & V & M). cbv [declaration_of declarations find fst] in M. tags. cbv iota beta in M. cbn [snd] in M. destruct M as (_ & M).
  unfold read_range. rewrite (category_ok (Elem (T "sourceRange") a b es) eq_refl A). cbn [sx_bind elems]. set (cat := match attr "category" (Elem (T "sourceRange") a b es) with Some c => if text_eqb c (T "inessential") then Inessential else Necessary | None => Necessary end).
  assert (Vs : forall c, In c es -> tag c = T "start" \/ tag c = T "end" -> matches (PSeq (PTag "line") (PTag "column")) (map tag (elems c))).
  { intros c I Tc. rewrite forallb_forall in V. specialize (V c I). destruct c as [cn ca cb ces]. cbn [tag elems] in *. apply valid_elem in V. destruct V as (_ & _ & V).
    destruct Tc as [-> | ->]; cbv [declaration_of declarations find fst] in V; tags; cbv iota beta in V; exact (proj2 V). }
  unfold range_particle, sequence in M. apply matches_seq in M. destruct M as (l1 & l2 & El & M1 & M). apply matches_seq in M. destruct M as (l3 & l4 & -> & M2 & M).
  apply matches_seq in M. destruct M as (l5 & l6 & -> & M3 & M). apply matches_seq in M. destruct M as (l7 & l8 & -> & M4 & M5).
  apply matches_tag in M2, M3, M4. subst l3 l5 l7. apply matches_maybe in M1, M5.
  assert (exists v p s n o, es = v ++ [p; s; n] ++ o /\ tag p = T "path" /\ tag s = T "start" /\ tag n = T "end" /\ map tag v = l1 /\ map tag o = l8) as (v & p & s & z & o & -> & Tp & Ts & Tz & Tv & To).
  { apply map_eq_app in El. destruct El as (v & es1 & -> & Ev & E). cbn [app] in E. destruct es1 as [|p [|s [|z o]]]; try discriminate. injection E as E1 E2 E3 E4.
    exists v, p, s, z, o. auto 10. }
  assert (Ms : matches (PSeq (PTag "line") (PTag "column")) (map tag (elems s))) by (apply Vs; [rewrite !in_app_iff; cbn; auto 10|auto]).
  assert (Mz : matches (PSeq (PTag "line") (PTag "column")) (map tag (elems z))) by (apply Vs; [rewrite !in_app_iff; cbn; auto 10|auto]).
  assert (Hv : v = [] \/ exists x, v = [x] /\ tag x = T "revisionRange").
  { destruct M1 as [M1|M1]; [left; rewrite M1 in Tv; destruct v; [reflexivity|discriminate]|]. apply matches_tag in M1. rewrite M1 in Tv. right. destruct v as [|x [|]]; try discriminate. injection Tv as Tv. eauto. }
  assert (Ho : o = [] \/ exists x, o = [x] /\ tag x = T "memberOffset").
  { destruct M5 as [M5|M5]; [left; rewrite M5 in To; destruct o; [reflexivity|discriminate]|]. apply matches_tag in M5. rewrite M5 in To. right. destruct o as [|x [|]]; try discriminate. injection To as To. eauto. }
  clear El M1 M5 Tv To Vs V A.
  assert (C : (called "path" (v ++ [p; s; z] ++ o) = [p]) /\ (called "start" (v ++ [p; s; z] ++ o) = [s]) /\ (called "end" (v ++ [p; s; z] ++ o) = [z]) /\
    called "memberOffset" (v ++ [p; s; z] ++ o) = o /\ called "revisionRange" (v ++ [p; s; z] ++ o) = v).
  { unfold called, is_tag. rewrite !filter_app. cbn [filter]. rewrite Tp, Ts, Tz. tags. destruct Hv as [->|(x & -> & Tx)], Ho as [->|(y & -> & Ty)]; cbn [filter]; rewrite ?Tx, ?Ty; tags; cbn; repeat split; reflexivity. }
  destruct C as (C1 & C2 & C3 & C4 & C5).
  match goal with |- fold_left ?g _ _ = _ <-> _ => set (f := g) end.
  assert (F : forall q, fold_left f (v ++ [p; s; z] ++ o) (SxDone (SourceRange [] None None cat None None)) = SxDone q <->
    exists ls lz, position s ls /\ position z lz /\ q = SourceRange (trimmed p) (Some ls) (Some lz) cat (match o with [x] => create_member_offset (trimmed x) | _ => None end)
      (match v with [x] => Some (revisions x) | _ => None end)).
  { intros q. rewrite fold_left_app.
    assert (fold_left f v (SxDone (SourceRange [] None None cat None None)) = SxDone (SourceRange [] None None cat None (match v with [x] => Some (revisions x) | _ => None end))) as ->.
    { destruct Hv as [->|(x & -> & Tx)]; [reflexivity|]. cbn [fold_left]. unfold f at 1. cbn [sx_bind]. unfold is_tag. rewrite Tx. tags. cbv iota. rewrite read_revisions_eq. reflexivity. }
    set (rv := match v with [x] => Some (revisions x) | _ => None end). rewrite fold_left_app. cbn [fold_left].
    unfold f at 4. cbn [sx_bind]. unfold is_tag. rewrite Tp. tags. cbv iota. unfold f at 3. cbn [sx_bind]. unfold is_tag. rewrite Ts. tags. cbv iota.
    assert (G : forall r, fold_left f o (SxDone r) = SxDone (let '(SourceRange a b c d e g) := r in SourceRange a b c d (match o with [x] => create_member_offset (trimmed x) | _ => e end) g)).
    { intros [a1 b1 c1 d1 e1 g1]. destruct Ho as [->|(x & -> & Tx)]; [reflexivity|]. cbn [fold_left]. unfold f at 1. cbn [sx_bind]. unfold is_tag. rewrite Tx. tags. reflexivity. }
    split.
    - intros E. destruct (read_location s) as [ls| | | |] eqn:Es; cbn [sx_bind] in E.
      2-5: exfalso; revert E; destruct Ho as [->|(x & -> & Tx)]; discriminate.
      unfold f at 2 in E. cbn [sx_bind] in E. unfold is_tag in E. rewrite Tz in E. tags. cbv iota in E.
      destruct (read_location z) as [lz| | | |] eqn:Ez; cbn [sx_bind] in E.
      2-5: exfalso; revert E; destruct Ho as [->|(x & -> & Tx)]; discriminate.
      rewrite G in E. injection E as <-. exists ls, lz. rewrite <- (read_location_iff s ls Ms), <- (read_location_iff z lz Mz). auto.
    - intros (ls & lz & Ps & Pz & ->). rewrite <- (read_location_iff s ls Ms) in Ps. rewrite <- (read_location_iff z lz Mz) in Pz. rewrite Ps. cbn [sx_bind].
      unfold f at 2. cbn [sx_bind]. unfold is_tag. rewrite Tz. tags. cbv iota. rewrite Pz. cbn [sx_bind]. rewrite G. reflexivity. }
  rewrite F. unfold ranged. cbn [elems]. rewrite C1, C2, C3, C4, C5. fold cat. split.
  - intros (ls & lz & Ps & Pz & ->). exists p, s, z, ls, lz. auto 10.
  - intros (p' & s' & z' & ls & lz & E1 & E2 & E3 & Ps & Pz & ->). injection E1 as <-. injection E2 as <-. injection E3 as <-. exists ls, lz. auto.
Qed.

(** ** Edges *)
Lemma parent_name_some cs s p : parent_name cs s = Some p -> In (BEdge p s) cs.
Proof.
  unfold parent_name. assert (X : forall cs o, fold_left (fun o c => match c with BEdge p x => if text_eqb x s then Some p else o | _ => o end) cs o = Some p -> In (BEdge p s) cs \/ o = Some p).
  { clear. induction cs as [|c cs IH]; intros o E; [right; exact E|]. cbn [fold_left] in E. destruct (IH _ E) as [I|I]; [left; right; exact I|].
    destruct c as [f|u|p' u|k p'|k e|u|u|u]; try (right; exact I). destruct (text_eqb u s) eqn:Es; [|right; exact I]. apply text_eqb_eq in Es. injection I as ->. subst u. left. left. reflexivity. }
  intros E. destruct (X _ _ E) as [I|I]; [exact I|discriminate].
Qed.
Lemma parent_name_none cs s p : parent_name cs s = None -> ~ In (BEdge p s) cs.
Proof.
  unfold parent_name. assert (X : forall cs o, fold_left (fun o c => match c with BEdge p x => if text_eqb x s then Some p else o | _ => o end) cs o = None -> ~ In (BEdge p s) cs /\ o = None).
  { clear. induction cs as [|c cs IH]; intros o E; [split; [intros []|exact E]|]. cbn [fold_left] in E. destruct (IH _ E) as [N Eo].
    destruct c as [f|u|p' u|k p'|k e|u|u|u]; try (split; [intros [I|I]; [discriminate|exact (N I)]|exact Eo]). destruct (text_eqb u s) eqn:Es; [discriminate|]. split; [|exact Eo].
    intros [I|I]; [|exact (N I)]. injection I as -> ->. rewrite (proj2 (text_eqb_eq s s) eq_refl) in Es. discriminate. }
  intros E. exact (proj1 (X _ _ E)).
Qed.
Lemma one_parent_sub a b : (forall p s, In (BEdge p s) a -> In (BEdge p s) b) -> one_parent b -> one_parent a.
Proof. intros I O p q s P Q. exact (O p q s (I _ _ P) (I _ _ Q)). Qed.

Lemma edge_call_iff cs p s cs' : one_parent cs -> (edge_call cs p s = SxDone cs' <-> one_parent (cs ++ [BEdge p s]) /\ cs' = cs ++ [BEdge p s]).
Proof.
  intros O. unfold edge_call. destruct (parent_name cs s) as [q|] eqn:E.
  - pose proof (parent_name_some _ _ _ E) as I. destruct (text_eqb q p) eqn:Eq.
    + apply text_eqb_eq in Eq. subst q. split.
      * intros X. injection X as <-. split; [|reflexivity]. eapply one_parent_sub; [|exact O]. intros u v J. apply in_app_or in J. destruct J as [J|[J|[]]]; [exact J|]. congruence.
      * intros [_ ->]. reflexivity.
    + split; [discriminate|]. intros [O' _]. exfalso. assert (q = p) as -> by (apply (O' q p s); apply in_or_app; [left; exact I|right; left; reflexivity]).
      rewrite (proj2 (text_eqb_eq p p) eq_refl) in Eq. discriminate.
  - pose proof (fun p => parent_name_none _ _ p E) as N. split.
    + intros X. injection X as <-. split; [|reflexivity]. intros a b c Ia Ib. apply in_app_or in Ia, Ib. destruct Ia as [Ia|[Ia|[]]], Ib as [Ib|[Ib|[]]].
      * exact (O a b c Ia Ib).
      * injection Ib as <- <-. exfalso. exact (N a Ia).
      * injection Ia as <- <-. exfalso. exact (N b Ib).
      * congruence.
    + intros [_ ->]. reflexivity.
Qed.

Lemma children_iff n : forall es cs cs', one_parent cs ->
  (fold_left (fun o d => sx_bind o (fun cs => if is_tag "options" d then edge_call cs n (content d) else SxDone cs)) es (SxDone cs) = SxDone cs' <->
   one_parent (cs ++ map (fun d => BEdge n (content d)) (called "options" es)) /\ cs' = cs ++ map (fun d => BEdge n (content d)) (called "options" es)).
Proof.
  induction es as [|d es IH]; intros cs cs' O.
  - cbn. rewrite app_nil_r. split; [intros E; injection E as <-; auto|intros [_ ->]; reflexivity].
  - change (fold_left _ (d :: es) (SxDone cs)) with (sx_fold (fun cs d => if is_tag "options" d then edge_call cs n (content d) else SxDone cs) (d :: es) (SxDone cs)).
    rewrite sx_fold_cons. unfold called. cbn [filter]. fold (called "options" es). destruct (is_tag "options" d).
    + cbn [map]. split.
      * intros (c1 & E1 & E). apply edge_call_iff in E1; [|exact O]. destruct E1 as [O1 ->]. apply (IH _ _ O1) in E. rewrite <- app_assoc in E. exact E.
      * intros (O2 & ->). exists (cs ++ [BEdge n (content d)]).
        assert (O1 : one_parent (cs ++ [BEdge n (content d)])).
        { eapply one_parent_sub; [|exact O2]. intros p s I. apply in_app_or in I. apply in_or_app. destruct I as [I|[I|[]]]; [left; exact I|right; left; exact I]. }
        split; [apply edge_call_iff; auto|]. apply IH; [exact O1|]. rewrite <- app_assoc. auto.
    + split.
      * intros (c1 & E1 & E). injection E1 as <-. apply IH; assumption.
      * intros X. exists cs. split; [reflexivity|]. apply IH; assumption.
Qed.

(** ** Options *)
Lemma drop_while_nil p (t : text) : drop_while p t = [] <-> forallb p t = true.
Proof. induction t as [|c t IH]; cbn; [tauto|]. destruct (p c); cbn; [exact IH|]. split; discriminate. Qed.
Lemma drop_while_forall p q (t : text) : forallb q t = true -> forallb q (drop_while p t) = true.
Proof. induction t as [|c t IH]; cbn; [auto|]. destruct (p c); [|auto]. intros E. apply andb_prop in E. tauto. Qed.
Lemma drop_while_head p (t : text) c r : drop_while p t = c :: r -> p c = false.
Proof. induction t as [|a t IH]; cbn; [discriminate|]. destruct (p a) eqn:E; [exact IH|]. intros X. injection X as -> _. exact E. Qed.
Lemma forallb_rev {A} (p : A -> bool) l : forallb p (rev l) = forallb p l.
Proof. induction l as [|a l IH]; [reflexivity|]. cbn. rewrite forallb_app, IH. cbn. rewrite andb_true_r. apply andb_comm. Qed.
Lemma trim_blank t : trim t = [] <-> blank t = true.
Proof.
  unfold trim, blank. split.
  - intros E. apply (f_equal (@rev ascii)) in E. rewrite rev_involutive in E. cbn in E. apply drop_while_nil in E. rewrite forallb_rev in E.
    destruct (drop_while is_space t) as [|c r] eqn:D; [apply drop_while_nil; exact D|]. pose proof (drop_while_head _ _ _ _ D) as X. cbn in E. rewrite X in E. discriminate.
  - intros B. rewrite (proj2 (drop_while_nil is_space t) B). reflexivity.
Qed.

Section Options.
Variables (sci : text -> option text) (step : text -> sx (option (Z -> option Z))).
Variable num : bool.

(** The state after the parts [es] without a name. *)
Definition sources (es : list xml) : list xml := flat_map (fun c => called "sourceRange" (elems c)) (filled "locations" es).
Definition steps (es : list xml) : list xml := if num then filled "stepFunction" es else [].
Definition after (s : ostate) (es : list xml) (rs : list source_range) (fs : list (option (Z -> option Z))) : ostate :=
  OState (o_name s) (last (map (fun c => drop_while is_space (content c)) (filled "outputString" es)) (o_output s))
    (last (map (fun c => text_eqb (trimmed c) (T "True")) (filled "optional" es)) (o_opt s))
    (if num then last (map (fun c => parse_integer sci (trimmed c)) (filled "minValue" es)) (o_min s) else o_min s)
    (if num then last (map (fun c => parse_integer sci (trimmed c)) (filled "maxValue" es)) (o_max s) else o_max s)
    (if num then o_values s ++ option_values sci es else o_values s)
    (o_ranges s ++ rs) (last fs (o_step s)) (o_calls s ++ flat_map (part_calls (o_name s)) es).
Definition read_as (s : ostate) (es : list xml) (s' : ostate) : Prop :=
  exists rs fs, Forall2 ranged (sources es) rs /\ Forall2 (fun c f => step (trimmed c) = SxDone f) (steps es) fs /\
    one_parent (o_calls s ++ flat_map (part_calls (o_name s)) es) /\ s' = after s es rs fs.

Lemma pair_calls_eq o n c : pair_calls o n c = map (fun d => BConstraint KBoolean (CBin o (CFeat (Own n)) (CFeat (Own (trimmed d))))) (called "options" (elems c)).
Proof. unfold pair_calls, called. induction (elems c) as [|d es IH]; [reflexivity|]. cbn [flat_map filter]. destruct (is_tag "options" d); cbn [map app]; rewrite IH; reflexivity. Qed.
Lemma one_parent_pairs cs o n l : one_parent cs -> one_parent (cs ++ map (fun d : xml => BConstraint KBoolean (CBin o (CFeat (Own n)) (CFeat (Own (trimmed d))))) l).
Proof. apply one_parent_sub. intros p s I. apply in_app_or in I. destruct I as [I|I]; [exact I|]. apply in_map_iff in I. destruct I as (x & X & _). discriminate. Qed.

Lemma ranges_iff : forall es rs rs', (forall d, In d es -> tag d = T "sourceRange" -> valid d = true) ->
  (fold_left (fun o d => sx_bind o (fun rs => if is_tag "sourceRange" d then sx_bind (read_range d) (fun r => SxDone (rs ++ [r])) else SxDone rs)) es (SxDone rs) = SxDone rs' <->
   exists l, Forall2 ranged (called "sourceRange" es) l /\ rs' = rs ++ l).
Proof.
  induction es as [|d es IH]; intros rs rs' V.
  - cbn. split; [intros E; injection E as <-; exists []; rewrite app_nil_r; auto|]. intros (l & F & ->). inversion F; subst. rewrite app_nil_r. reflexivity.
  - assert (V' : forall d, In d es -> tag d = T "sourceRange" -> valid d = true) by (intros x I; apply V; right; exact I).
    change (fold_left _ (d :: es) (SxDone rs)) with (sx_fold (fun rs d => if is_tag "sourceRange" d then sx_bind (read_range d) (fun r => SxDone (rs ++ [r])) else SxDone rs) (d :: es) (SxDone rs)).
    rewrite sx_fold_cons. unfold called. cbn [filter]. fold (called "sourceRange" es). destruct (is_tag "sourceRange" d) eqn:Td.
    + assert (Q : forall r, read_range d = SxDone r <-> ranged d r) by (intros r; apply read_range_iff; [apply text_eqb_eq; exact Td|apply V; [left; reflexivity|apply text_eqb_eq; exact Td]]).
      split.
      * intros (r1 & E1 & E). apply sx_bind_done in E1. destruct E1 as (r & Er & E1). injection E1 as <-. apply (IH _ _ V') in E. destruct E as (l & F & ->). exists (r :: l).
        rewrite <- app_assoc. split; [constructor; [apply Q; exact Er|exact F]|reflexivity].
      * intros (l & F & ->). inversion F as [|? r ? l' Fr F']; subst. exists (rs ++ [r]). split; [apply sx_bind_done; exists r; split; [apply Q; exact Fr|reflexivity]|].
        apply (IH _ _ V'). exists l'. rewrite <- app_assoc. auto.
    + split.
      * intros (r1 & E1 & E). injection E1 as <-. apply (IH _ _ V'). exact E.
      * intros X. exists rs. split; [reflexivity|]. apply (IH _ _ V'). exact X.
Qed.

Lemma locations_valid c d : valid c = true -> In d (elems c) -> valid d = true.
Proof. destruct c as [n a b es]. intros V I. apply valid_elem in V. destruct V as (_ & V & _). rewrite forallb_forall in V. exact (V d I). Qed.

Lemma pick_filled {X} (t : text) (a b : X) : t <> [] -> match t with [] => a | _ :: _ => b end = b.
Proof. destruct t; [contradiction|reflexivity]. Qed.

Lemma read_field_iff s c s' : is_tag "name" c = false -> valid c = true -> one_parent (o_calls s) ->
  (read_field sci step num s c = SxDone s' <-> read_as s [c] s').
Proof.
  intros Nn V O. destruct s as [n out opt lo hi vs rs st cs]. cbn [o_calls] in O.
  unfold read_field, read_as, after, sources, steps, option_values, part_calls, filled. cbn [o_name o_output o_opt o_min o_max o_values o_ranges o_step o_calls filter flat_map].
  rewrite Nn, !app_nil_r. fold (trimmed c).
  destruct (blank (content c)) eqn:Bl.
  { assert (trimmed c = []) as Et by (apply trim_blank; exact Bl). rewrite Et. cbn [negb]. rewrite !andb_false_r. cbn [filter flat_map map last]. rewrite !app_nil_r.
    split.
    - intros E. injection E as <-. exists [], []. split; [constructor|]. split; [destruct num; constructor|]. split; [exact O|]. destruct num; rewrite ?app_nil_r; reflexivity.
    - intros (rs' & fs & F & G & _ & ->). inversion F; subst. assert (fs = []) as -> by (destruct num; inversion G; reflexivity). cbn [last]. rewrite !app_nil_r. destruct num; reflexivity. }
  assert (trimmed c <> []) as Nt by (intros X; apply trim_blank in X; congruence). cbn [negb]. rewrite !andb_true_r.
  rewrite (pick_filled (trimmed c)) by exact Nt.
  assert (Simple : forall out' opt' lo' hi' vs', 
    (SxDone (OState n out' opt' lo' hi' vs' rs st cs) = SxDone s' <->
     exists rs' fs, Forall2 ranged [] rs' /\ Forall2 (fun c f => step (trimmed c) = SxDone f) (if num then [] else []) fs /\ one_parent cs /\ s' = OState n out' opt' lo' hi' vs' (rs ++ rs') (last fs st) cs)).
  { intros. split.
    - intros E. injection E as <-. exists [], []. rewrite app_nil_r. split; [constructor|]. split; [destruct num; constructor|]. auto.
    - intros (rs' & fs & F & G & _ & ->). inversion F; subst. assert (fs = []) as -> by (destruct num; inversion G; reflexivity). rewrite app_nil_r. reflexivity. }
  destruct c as [nm at_ bd es]. unfold is_tag in *. cbn [tag elems] in *.
  destruct (text_eqb nm (T "outputString")) eqn:T1.
  { apply text_eqb_eq in T1. subst nm. tags. cbn [filter flat_map map last app]. rewrite !app_nil_r. destruct num; apply Simple. }
  destruct (text_eqb nm (T "optional")) eqn:T2.
  { apply text_eqb_eq in T2. subst nm. tags. cbn [filter flat_map map last app]. rewrite !app_nil_r. destruct num; apply Simple. }
  destruct (text_eqb nm (T "parent")) eqn:T3.
  { apply text_eqb_eq in T3. subst nm. tags. cbn [filter flat_map map last app]. rewrite !app_nil_r. rewrite sx_bind_done. split.
    - intros (cs1 & E1 & E). apply edge_call_iff in E1; [|exact O]. destruct E1 as [O1 ->]. injection E as <-. exists [], []. split; [constructor|]. split; [destruct num; constructor|]. split; [exact O1|].
      rewrite app_nil_r. destruct num; reflexivity.
    - intros (rs' & fs & F & G & O1 & ->). exists (cs ++ [BEdge (trimmed (Elem (T "parent") at_ bd es)) n]). split; [apply edge_call_iff; auto|]. inversion F; subst.
      assert (fs = []) as -> by (destruct num; inversion G; reflexivity). rewrite app_nil_r. destruct num; reflexivity. }
  destruct (text_eqb nm (T "children")) eqn:T4.
  { apply text_eqb_eq in T4. subst nm. tags. cbn [filter flat_map map last app]. rewrite !app_nil_r. rewrite sx_bind_done. split.
    - intros (cs1 & E1 & E). apply children_iff in E1; [|exact O]. destruct E1 as [O1 ->]. injection E as <-. exists [], []. split; [constructor|]. split; [destruct num; constructor|]. split; [exact O1|].
      rewrite app_nil_r. destruct num; reflexivity.
    - intros (rs' & fs & F & G & O1 & ->). eexists. split; [apply children_iff; [exact O|]; split; [exact O1|reflexivity]|]. inversion F; subst.
      assert (fs = []) as -> by (destruct num; inversion G; reflexivity). rewrite app_nil_r. destruct num; reflexivity. }
  destruct (text_eqb nm (T "excludedOptions")) eqn:T5.
  { apply text_eqb_eq in T5. subst nm. tags. cbn [filter flat_map map last app]. rewrite !app_nil_r. rewrite pair_calls_eq. cbn [elems]. split.
    - intros E. injection E as <-. exists [], []. split; [constructor|]. split; [destruct num; constructor|]. split; [apply one_parent_pairs; exact O|].
      rewrite app_nil_r. destruct num; reflexivity.
    - intros (rs' & fs & F & G & O1 & ->). inversion F; subst.
      assert (fs = []) as -> by (destruct num; inversion G; reflexivity). rewrite app_nil_r. destruct num; reflexivity. }
  destruct (text_eqb nm (T "impliedOptions")) eqn:T6.
  { apply text_eqb_eq in T6. subst nm. tags. cbn [filter flat_map map last app]. rewrite !app_nil_r. rewrite pair_calls_eq. cbn [elems]. split.
    - intros E. injection E as <-. exists [], []. split; [constructor|]. split; [destruct num; constructor|]. split; [apply one_parent_pairs; exact O|].
      rewrite app_nil_r. destruct num; reflexivity.
    - intros (rs' & fs & F & G & O1 & ->). inversion F; subst.
      assert (fs = []) as -> by (destruct num; inversion G; reflexivity). rewrite app_nil_r. destruct num; reflexivity. }
  destruct (text_eqb nm (T "locations")) eqn:T7.
  { apply text_eqb_eq in T7. subst nm. tags. cbn [filter flat_map map last app]. rewrite !app_nil_r. rewrite sx_bind_done. cbn [elems].
    assert (Vd : forall d, In d es -> tag d = T "sourceRange" -> valid d = true) by (intros d I _; exact (locations_valid _ d V I)). split.
    - intros (rs1 & E1 & E). apply (ranges_iff _ _ _ Vd) in E1. destruct E1 as (l & F & ->). injection E as <-. exists l, []. split; [exact F|]. split; [destruct num; constructor|]. split; [exact O|].
      destruct num; reflexivity.
    - intros (rs' & fs & F & G & O1 & ->). eexists. split; [apply (ranges_iff _ _ _ Vd); eexists; split; [exact F|reflexivity]|].
      assert (fs = []) as -> by (destruct num; inversion G; reflexivity). destruct num; reflexivity. }
  destruct num.
  - destruct (text_eqb nm (T "minValue")) eqn:T8.
    { apply text_eqb_eq in T8. subst nm. tags. cbn [filter flat_map map last app]. rewrite !app_nil_r. apply Simple. }
    destruct (text_eqb nm (T "maxValue")) eqn:T9.
    { apply text_eqb_eq in T9. subst nm. tags. cbn [filter flat_map map last app]. rewrite !app_nil_r. apply Simple. }
    destruct (text_eqb nm (T "values")) eqn:T10.
    { apply text_eqb_eq in T10. subst nm. tags. cbn [filter flat_map map last app]. rewrite !app_nil_r. apply Simple. }
    destruct (text_eqb nm (T "stepFunction")) eqn:T11.
    { apply text_eqb_eq in T11. subst nm. tags. cbn [filter flat_map map last app]. rewrite !app_nil_r. rewrite sx_bind_done. split.
      - intros (f & E1 & E). injection E as <-. exists [], [f]. split; [constructor|]. split; [constructor; [exact E1|constructor]|]. split; [exact O|]. rewrite app_nil_r. reflexivity.
      - intros (rs' & fs & F & G & O1 & ->). inversion F; subst. inversion G as [|? f ? l Gf G']; subst. inversion G'; subst. exists f. split; [exact Gf|]. rewrite app_nil_r. reflexivity. }
    cbn [filter flat_map map last app]. rewrite !app_nil_r. apply Simple.
  - cbn [filter flat_map map last app]. rewrite !app_nil_r. apply Simple.
Qed.

Lemma filled_app s a b : filled s (a ++ b) = filled s a ++ filled s b.
Proof. apply filter_app. Qed.
Lemma forall2_app_inv {A B} (P : A -> B -> Prop) a b l : Forall2 P (a ++ b) l -> exists x y, l = x ++ y /\ Forall2 P a x /\ Forall2 P b y.
Proof. intros F. apply Forall2_app_inv_l in F. destruct F as (x & y & Fa & Fb & ->). eauto. Qed.

Lemma read_as_cons s c es s' : read_as s (c :: es) s' <-> exists s1, read_as s [c] s1 /\ read_as s1 es s'.
Proof.
  assert (Sp : sources (c :: es) = sources [c] ++ sources es) by (unfold sources; change (c :: es) with ([c] ++ es); rewrite filled_app, flat_map_app; reflexivity).
  assert (St : steps (c :: es) = steps [c] ++ steps es) by (unfold steps; destruct num; [change (c :: es) with ([c] ++ es); apply filled_app|reflexivity]).
  assert (Af : forall r1 r2 f1 f2, after s (c :: es) (r1 ++ r2) (f1 ++ f2) = after (after s [c] r1 f1) es r2 f2).
  { intros. unfold after, option_values. cbn [o_name o_output o_opt o_min o_max o_values o_ranges o_step o_calls]. change (c :: es) with ([c] ++ es).
    rewrite !filled_app, !map_app, !last_app, !flat_map_app, !app_assoc. destruct num; reflexivity. }
  assert (Pc : flat_map (part_calls (o_name s)) (c :: es) = flat_map (part_calls (o_name s)) [c] ++ flat_map (part_calls (o_name s)) es) by (cbn [flat_map]; rewrite app_nil_r; reflexivity).
  unfold read_as. rewrite Sp, St, Pc. split.
  - intros (rs & fs & F & G & O & ->). apply forall2_app_inv in F, G. destruct F as (r1 & r2 & -> & F1 & F2). destruct G as (f1 & f2 & -> & G1 & G2). rewrite app_assoc in O.
    exists (after s [c] r1 f1). split; [exists r1, f1; split; [exact F1|]; split; [exact G1|]; split; [|reflexivity]|].
    + eapply one_parent_sub; [|exact O]. intros p q I. apply in_or_app. left. exact I.
    + exists r2, f2. split; [exact F2|]. split; [exact G2|]. split; [exact O|apply Af].
  - intros (s1 & (r1 & f1 & F1 & G1 & O1 & ->) & (r2 & f2 & F2 & G2 & O2 & ->)). exists (r1 ++ r2), (f1 ++ f2). split; [apply Forall2_app; assumption|]. split; [apply Forall2_app; assumption|].
    split; [rewrite app_assoc; exact O2|symmetry; apply Af].
Qed.

Lemma read_fields_iff : forall es s s', (forall c, In c es -> is_tag "name" c = false /\ valid c = true) -> one_parent (o_calls s) ->
  (fold_left (fun o c => sx_bind o (fun s => read_field sci step num s c)) es (SxDone s) = SxDone s' <-> read_as s es s').
Proof.
  induction es as [|c es IH]; intros s s' N O.
  - unfold read_as, after, sources, steps, option_values. cbn. split.
    + intros E. injection E as <-. exists [], []. split; [constructor|]. split; [destruct num; constructor|]. rewrite app_nil_r. split; [exact O|]. destruct s, num; cbn; rewrite ?app_nil_r; reflexivity.
    + intros (rs & fs & F & G & _ & ->). inversion F; subst. assert (fs = []) as -> by (destruct num; inversion G; reflexivity). cbn. destruct s, num; cbn; rewrite !app_nil_r; reflexivity.
  - change (fold_left _ (c :: es) (SxDone s)) with (sx_fold (read_field sci step num) (c :: es) (SxDone s)). rewrite sx_fold_cons, read_as_cons.
    destruct (N c (or_introl eq_refl)) as (Nc & Vc). assert (N' : forall c, In c es -> is_tag "name" c = false /\ valid c = true) by (intros x I; apply N; right; exact I).
    split.
    + intros (s1 & E1 & E). apply read_field_iff in E1; auto. exists s1. split; [exact E1|]. apply IH; auto. destruct E1 as (? & ? & _ & _ & O1 & ->). cbn [flat_map app] in *. exact O1.
    + intros (s1 & R1 & R2). exists s1. split; [apply read_field_iff; auto|]. apply IH; auto. destruct R1 as (? & ? & _ & _ & O1 & ->). exact O1.
Qed.

(** The parts of an option: the name first, and no other name. *)
Fixpoint particle_tags (p : particle) : list string :=
  match p with PTag s | PMany s => [s] | PMaybe p => particle_tags p | PSeq p q | PAlt p q => particle_tags p ++ particle_tags q end.
Lemma matches_tags p l : matches p l -> forall x, In x l -> In x (map T (particle_tags p)).
Proof.
  induction 1 as [s|s n|p|p l M IH|p q a b Ma IHa Mb IHb|p q l M IH|p q l M IH]; intros x I; cbn [particle_tags map].
  - exact I.
  - apply repeat_spec in I. left. auto.
  - destruct I.
  - auto.
  - rewrite map_app. apply in_app_or in I. apply in_or_app. destruct I; auto.
  - rewrite map_app. apply in_or_app. auto.
  - rewrite map_app. apply in_or_app. auto.
Qed.

Lemma option_parts e : tag e = T "configurationOption" -> valid e = true -> exists c es, elems e = c :: es /\ tag c = T "name" /\ valid c = true /\
  (forall d, In d es -> is_tag "name" d = false /\ valid d = true) /\ blank (body e) = true.
Proof.
  destruct e as [n a b es]. cbn [tag elems body]. intros -> V. apply valid_elem in V. destruct V as (_ & V & M). cbv [declaration_of declarations find fst] in M. tags. cbv iota beta in M. cbn [snd] in M. destruct M as (B & M).
  unfold option_particle in M. cbn [sequence] in M. apply matches_seq in M. destruct M as (x & y & E & Mx & My). apply matches_tag in Mx. subst x. destruct es as [|c es]; [discriminate|]. cbn [map app] in E. injection E as Ec Ey.
  exists c, es. rewrite forallb_forall in V. split; [reflexivity|]. split; [exact Ec|]. split; [apply V; left; reflexivity|]. split; [|exact B]. intros d I. split; [|apply V; right; exact I].
  pose proof (matches_tags _ _ My (tag d)) as X. rewrite <- Ey in X. specialize (X (in_map tag _ _ I)). unfold is_tag. destruct (text_eqb (tag d) (T "name")) eqn:Ed; [|reflexivity]. apply text_eqb_eq in Ed. rewrite Ed in X.
  exfalso. revert X. cbn. intuition discriminate.
Qed.

Lemma read_option_iff cs e cs' : tag e = T "configurationOption" -> valid e = true -> one_parent cs ->
  (read_option sci step num cs e = SxDone cs' <-> exists l, option_stands sci step num e l /\ one_parent (cs ++ l) /\ cs' = cs ++ l).
Proof.
  intros Te V O. destruct (option_parts e Te V) as (c & es & Ee & Tc & Vc & N & _). unfold read_option. rewrite Ee. rewrite sx_bind_done.
  set (s0 := OState (T "root") [] false 0 0 [] [] None cs).
  assert (Nm : forall d, In d es -> is_tag "name" d = false) by (intros d I; exact (proj1 (N d I))).
  assert (En : option_name e = if blank (content c) then T "root" else trimmed c).
  { unfold option_name, filled. rewrite Ee. cbn [filter]. unfold is_tag at 1. rewrite Tc. tags. cbn [andb].
    assert (filter (fun c0 : xml => is_tag "name" c0 && negb (blank (content c0))) es = []) as ->.
    { clear -Nm. induction es as [|d es IH]; [reflexivity|]. cbn [filter]. rewrite (Nm d (or_introl eq_refl)). cbn [andb]. apply IH. intros x I. apply Nm. right. exact I. }
    destruct (blank (content c)); reflexivity. }
  set (s1 := OState (option_name e) [] false 0 0 [] [] None cs).
  assert (E0 : read_field sci step num s0 c = SxDone s1).
  { unfold read_field, s0, s1. fold (trimmed c). rewrite En. destruct (blank (content c)) eqn:B.
    - assert (trimmed c = []) as -> by (apply trim_blank; exact B). reflexivity.
    - rewrite (pick_filled (trimmed c)) by (intros X; apply trim_blank in X; congruence). unfold is_tag. rewrite Tc. tags. reflexivity. }
  assert (Nc : forall t, text_eqb (T "name") (T t) = false -> is_tag t c = false) by (intros t X; unfold is_tag; rewrite Tc; exact X).
  assert (Sk : forall t, text_eqb (T "name") (T t) = false -> filled t (elems e) = filled t es) by (intros t X; rewrite Ee; unfold filled; cbn [filter]; rewrite (Nc t X); reflexivity).
  assert (Pc : flat_map (part_calls (option_name e)) (elems e) = flat_map (part_calls (option_name e)) es).
  { rewrite Ee. cbn [flat_map]. assert (part_calls (option_name e) c = []) as ->; [|reflexivity]. unfold part_calls, is_tag. rewrite Tc. tags. destruct (blank (content c)); reflexivity. }
  assert (Fe : forall rs fs, option_feature num (after s1 es rs fs) = option_call sci num e rs fs).
  { intros rs fs. unfold option_feature, option_call, after, is_root_name, option_values. cbn [o_name o_output o_opt o_min o_max o_values o_ranges o_step o_calls s1].
    rewrite !Sk by reflexivity. destruct num; reflexivity. }
  assert (Oe : forall l, one_parent l -> forall rs fs, one_parent (l ++ [option_call sci num e rs fs])).
  { intros l Ol rs fs. eapply one_parent_sub; [|exact Ol]. intros p s I. apply in_app_or in I. destruct I as [I|[I|[]]]; [exact I|]. exfalso. unfold option_call in I. destruct (_ || _) in I; discriminate. }
  unfold option_stands. rewrite Pc. replace (flat_map (fun c => called "sourceRange" (elems c)) (filled "locations" (elems e))) with (sources es) by (unfold sources; rewrite Sk by reflexivity; reflexivity).
  replace (if num then filled "stepFunction" (elems e) else []) with (steps es) by (unfold steps; rewrite Sk by reflexivity; reflexivity).
  change (fold_left (fun (o : sx ostate) c => sx_bind o (fun s => read_field sci step num s c)) (c :: es) (SxDone s0)) with (sx_fold (read_field sci step num) (c :: es) (SxDone s0)).
  split.
  - intros (s' & E & X). injection X as <-. apply sx_fold_cons in E. destruct E as (s2 & E1 & E). rewrite E0 in E1. injection E1 as <-. apply read_fields_iff in E; [|exact N|exact O].
    destruct E as (rs & fs & F & G & O1 & ->). eexists. split; [exists rs, fs; split; [exact F|]; split; [exact G|reflexivity]|]. rewrite Fe. cbn [after o_calls o_name s1] in *. rewrite app_assoc. split; [apply Oe; exact O1|reflexivity].
  - intros (l & (rs & fs & F & G & ->) & O1 & ->). exists (after s1 es rs fs). split.
    + apply sx_fold_cons. exists s1. split; [exact E0|]. apply read_fields_iff; [exact N|exact O|]. exists rs, fs. split; [exact F|]. split; [exact G|]. split; [|reflexivity]. cbn [o_calls o_name s1].
      eapply one_parent_sub; [|exact O1]. intros p s I. rewrite app_assoc. apply in_or_app. left. exact I.
    + rewrite Fe. cbn [after o_calls o_name s1]. rewrite app_assoc. reflexivity.
Qed.

Lemma read_options_iff : forall es cs cs', (forall c, In c es -> tag c = T "configurationOption" /\ valid c = true) -> one_parent cs ->
  (fold_left (fun o c => sx_bind o (fun cs => if is_tag "configurationOption" c then read_option sci step num cs c else SxDone cs)) es (SxDone cs) = SxDone cs' <->
   exists l, Forall2 (option_stands sci step num) es l /\ one_parent (cs ++ List.concat l) /\ cs' = cs ++ List.concat l).
Proof.
  induction es as [|c es IH]; intros cs cs' N O.
  - cbn. split; [intros E; injection E as <-; exists []; cbn; rewrite app_nil_r; auto|]. intros (l & F & _ & ->). inversion F; subst. cbn. rewrite app_nil_r. reflexivity.
  - change (fold_left _ (c :: es) (SxDone cs)) with (sx_fold (fun cs c => if is_tag "configurationOption" c then read_option sci step num cs c else SxDone cs) (c :: es) (SxDone cs)).
    rewrite sx_fold_cons. destruct (N c (or_introl eq_refl)) as (Tc & Vc). assert (is_tag "configurationOption" c = true) as -> by (unfold is_tag; rewrite Tc; reflexivity).
    assert (N' : forall c, In c es -> tag c = T "configurationOption" /\ valid c = true) by (intros x I; apply N; right; exact I).
    split.
    + intros (c1 & E1 & E). apply read_option_iff in E1; auto. destruct E1 as (a & A & O1 & ->). apply (IH _ _ N' O1) in E. destruct E as (l & F & O2 & ->). exists (a :: l). split; [constructor; assumption|]. cbn [List.concat]. rewrite app_assoc. auto.
    + intros (l & F & O2 & ->). inversion F as [|? a ? l' A F']; subst. cbn [List.concat] in *. rewrite app_assoc in *. assert (O1 : one_parent (cs ++ a)) by (eapply one_parent_sub; [|exact O2]; intros p s I; apply in_or_app; left; exact I).
      exists (cs ++ a). split; [apply read_option_iff; eauto|]. apply (IH _ _ N' O1). eauto.
Qed.
End Options.

(** ** Constraints and sections *)
Lemma read_section_iff f (P : xml -> bcall -> Prop) : forall es cs cs', (forall c, In c es -> tag c = T "constraint") -> (forall c b, f c = SxDone b <-> P c b) ->
  (fold_left (fun o c => sx_bind o (fun cs => if is_tag "constraint" c then sx_bind (f c) (fun b => SxDone (cs ++ [b])) else SxDone cs)) es (SxDone cs) = SxDone cs' <->
   exists l, Forall2 P es l /\ cs' = cs ++ l).
Proof.
  induction es as [|c es IH]; intros cs cs' N Q.
  - cbn. split; [intros E; injection E as <-; exists []; rewrite app_nil_r; auto|]. intros (l & F & ->). inversion F; subst. rewrite app_nil_r. reflexivity.
  - change (fold_left _ (c :: es) (SxDone cs)) with (sx_fold (fun cs c => if is_tag "constraint" c then sx_bind (f c) (fun b => SxDone (cs ++ [b])) else SxDone cs) (c :: es) (SxDone cs)).
    rewrite sx_fold_cons. assert (is_tag "constraint" c = true) as -> by (unfold is_tag; rewrite (N c (or_introl eq_refl)); reflexivity).
    assert (N' : forall c, In c es -> tag c = T "constraint") by (intros x I; apply N; right; exact I). split.
    + intros (c1 & E1 & E). apply sx_bind_done in E1. destruct E1 as (b & Eb & E1). injection E1 as <-. apply (IH _ _ N' Q) in E. destruct E as (l & F & ->). exists (b :: l). rewrite <- app_assoc. split; [constructor; [apply Q; exact Eb|exact F]|reflexivity].
    + intros (l & F & ->). inversion F as [|? b ? l' B F']; subst. exists (cs ++ [b]). split; [apply sx_bind_done; exists b; split; [apply Q; exact B|reflexivity]|]. apply (IH _ _ N' Q). exists l'. rewrite <- app_assoc. auto.
Qed.

Section Sections.
Variables (sci : text -> option text) (step : text -> sx (option (Z -> option Z))).
Lemma read_plain_iff k c b : read_plain sci k c = SxDone b <-> plain_stands sci k c b.
Proof.
  unfold read_plain, plain_stands, read_constraint_text. rewrite sx_bind_done. split.
  - intros (x & E & X). injection X as <-. destruct (parse_text sci (content c)); try discriminate. injection E as <-. eauto.
  - intros (x & -> & ->). eauto.
Qed.
Lemma read_mixed_iff c b : read_mixed sci c = SxDone b <-> mixed_stands sci c b.
Proof.
  unfold read_mixed, mixed_stands, read_constraint_text. rewrite sx_bind_done. split.
  - intros (x & E & X). destruct (parse_text sci (content c)) as [y| | |]; try discriminate. injection E as <-. destruct (attr "req" c) as [r|]; [|discriminate]. destruct (attr "exprKind" c) as [k|]; [|discriminate].
    injection X as <-. exists y, r, k. auto.
  - intros (x & r & k & -> & -> & -> & ->). eauto.
Qed.
Lemma plain_no_edge k c b : plain_stands sci k c b -> forall p s, b <> BEdge p s.
Proof. intros (x & _ & ->) p s. discriminate. Qed.
Lemma mixed_no_edge c b : mixed_stands sci c b -> forall p s, b <> BEdge p s.
Proof. intros (x & r & k & _ & _ & _ & ->) p s. discriminate. Qed.
Lemma no_edges (P : xml -> bcall -> Prop) es l cs : (forall c b, P c b -> forall p s, b <> BEdge p s) -> Forall2 P es l -> one_parent cs -> one_parent (cs ++ l).
Proof.
  intros N F. apply one_parent_sub. intros p s I. apply in_app_or in I. destruct I as [I|I]; [exact I|]. exfalso. clear cs. induction F as [|c b es l B F IH]; [destruct I|]. destruct I as [I|I]; [exact (N _ _ B p s I)|auto].
Qed.

Definition read_one (cs : list bcall) (c : xml) : sx (list bcall) :=
  if is_tag "binaryOptions" c then read_options sci step false cs c
  else if is_tag "numericOptions" c then read_options sci step true cs c
  else if is_tag "booleanConstraints" c then read_section (read_plain sci KBoolean) cs c
  else if is_tag "nonBooleanConstraints" c then read_section (read_plain sci KNonBoolean) cs c
  else if is_tag "mixedConstraints" c then read_section (read_mixed sci) cs c
  else SxDone cs.

Lemma many_elems n a b es s : valid (Elem n a b es) = true -> declaration_of n = Some (Below (PMany s)) -> forall c, In c es -> tag c = T s /\ valid c = true.
Proof.
  intros V D c I. apply valid_elem in V. destruct V as (_ & V & M). rewrite D in M. rewrite forallb_forall in V. split; [|exact (V c I)].
  apply (matches_many _ _ (proj2 M)). apply in_map. exact I.
Qed.

Lemma read_one_iff cs c cs' : valid c = true -> one_parent cs -> (read_one cs c = SxDone cs' <-> exists l, section_stands sci step c l /\ one_parent (cs ++ l) /\ cs' = cs ++ l).
Proof.
  intros V O. destruct c as [n a b es]. unfold read_one, section_stands, is_tag. cbn [tag elems].
  assert (Pl : forall f (P : xml -> bcall -> Prop), (forall c, In c es -> tag c = T "constraint" /\ valid c = true) -> (forall c b, f c = SxDone b <-> P c b) -> (forall c b, P c b -> forall p s, b <> BEdge p s) ->
    (read_section f cs (Elem n a b es) = SxDone cs' <-> exists l, Forall2 P es l /\ one_parent (cs ++ l) /\ cs' = cs ++ l)).
  { intros f P N Q E. unfold read_section. cbn [elems]. rewrite (read_section_iff f P es cs cs'); [|intros c I; exact (proj1 (N c I))|exact Q]. split.
    - intros (l & F & ->). exists l. split; [exact F|]. split; [exact (no_edges P es l cs E F O)|reflexivity].
    - intros (l & F & _ & ->). eauto. }
  destruct (text_eqb n (T "binaryOptions")) eqn:T1.
  { apply text_eqb_eq in T1. unfold read_options. cbn [elems]. rewrite read_options_iff; [|intros c I; apply (many_elems n a b es "configurationOption" V); [subst n; reflexivity|exact I]|exact O]. split.
    - intros (l & F & O1 & ->). exists (List.concat l). eauto.
    - intros (x & (l & F & ->) & O1 & ->). eauto. }
  destruct (text_eqb n (T "numericOptions")) eqn:T2.
  { apply text_eqb_eq in T2. unfold read_options. cbn [elems]. rewrite read_options_iff; [|intros c I; apply (many_elems n a b es "configurationOption" V); [subst n; reflexivity|exact I]|exact O]. split.
    - intros (l & F & O1 & ->). exists (List.concat l). eauto.
    - intros (x & (l & F & ->) & O1 & ->). eauto. }
  destruct (text_eqb n (T "booleanConstraints")) eqn:T3.
  { apply text_eqb_eq in T3. apply Pl; [intros c I; apply (many_elems n a b es "constraint" V); [subst n; reflexivity|exact I]|apply read_plain_iff|apply plain_no_edge]. }
  destruct (text_eqb n (T "nonBooleanConstraints")) eqn:T4.
  { apply text_eqb_eq in T4. apply Pl; [intros c I; apply (many_elems n a b es "constraint" V); [subst n; reflexivity|exact I]|apply read_plain_iff|apply plain_no_edge]. }
  destruct (text_eqb n (T "mixedConstraints")) eqn:T5.
  { apply text_eqb_eq in T5. apply Pl; [intros c I; apply (many_elems n a b es "constraint" V); [subst n; reflexivity|exact I]|apply read_mixed_iff|apply mixed_no_edge]. }
  split.
  - intros E. injection E as <-. exists []. rewrite app_nil_r. auto.
  - intros (l & -> & _ & ->). rewrite app_nil_r. reflexivity.
Qed.

Lemma read_parts_iff : forall es cs cs', (forall c, In c es -> valid c = true) -> one_parent cs ->
  (sx_fold read_one es (SxDone cs) = SxDone cs' <-> exists l, Forall2 (section_stands sci step) es l /\ one_parent (cs ++ List.concat l) /\ cs' = cs ++ List.concat l).
Proof.
  induction es as [|c es IH]; intros cs cs' N O.
  - cbn. split; [intros E; injection E as <-; exists []; cbn; rewrite app_nil_r; auto|]. intros (l & F & _ & ->). inversion F; subst. cbn. rewrite app_nil_r. reflexivity.
  - rewrite sx_fold_cons. assert (Vc := N c (or_introl eq_refl)). assert (N' : forall c, In c es -> valid c = true) by (intros x I; apply N; right; exact I). split.
    + intros (c1 & E1 & E). apply read_one_iff in E1; auto. destruct E1 as (a & A & O1 & ->). apply (IH _ _ N' O1) in E. destruct E as (l & F & O2 & ->). exists (a :: l). split; [constructor; assumption|]. cbn [List.concat]. rewrite app_assoc. auto.
    + intros (l & F & O2 & ->). inversion F as [|? a ? l' A F']; subst. cbn [List.concat] in *. rewrite app_assoc in *. assert (O1 : one_parent (cs ++ a)) by (eapply one_parent_sub; [|exact O2]; intros p s I; apply in_or_app; left; exact I).
      exists (cs ++ a). split; [apply read_one_iff; eauto|]. apply (IH _ _ N' O1). eauto.
Qed.

Theorem read_vm_iff cwd e cs : valid e = true -> (read_vm sci step cwd e = SxDone cs <-> stands sci step cwd e cs).
Proof.
  intros V. unfold read_vm. 
  match goal with |- fold_left _ _ (SxDone ?x) = _ <-> _ => set (hd := x) end.
  change (sx_fold read_one (elems e) (SxDone hd) = SxDone cs <-> stands sci step cwd e cs).
  assert (O : one_parent hd) by (intros p q s I; cbn in I; intuition discriminate).
  rewrite (read_parts_iff (elems e) hd cs); [|intros c I; exact (locations_valid e c V I)|exact O]. unfold stands. fold hd. split.
  - intros (l & F & O1 & ->). exists l. split; [exact F|]. split; [exact O1|]. reflexivity.
  - intros (l & F & O1 & ->). exists l. split; [exact F|]. split; [exact O1|]. reflexivity.
Qed.
End Sections.
