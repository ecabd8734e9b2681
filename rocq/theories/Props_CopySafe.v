(** C79: copy transactions do to the copy what they are told. *)
From Coq Require Import List ZArith Arith Bool Ascii String Permutation.
From Verif Require Import Text ConstraintModel ConstraintSpec SourceRangeModel FeatureTreeModel FeatureTreeSpec FeatureTransactionModel FeatureTransactionSpec FeatureEditSpec FeatureCloneSpec FeatureTransactionExamples XmlModel XmlSpec RegisterSpec
  SafeSpec CopySafeSpec CopySafeProofs SafeMadeSpec SafeFinal SafeExamples CopySafeExamples.
Import ListNotations.
Local Open Scope string_scope.
Local Open Scope list_scope.
Local Open Scope nat_scope.

(** What every call does, when it is defined, and what it reports. *)
Theorem C79_calls_modify_the_copy :
  forall ord o h m b h' t' e, copy_exec ord o h (Ctx (Some m) b) = Some (h', t', e) <->
  (exists o' m' e0, meant (h, m) o o' /\ exec ord o' (h, m) = Some ((h', m'), e0) /\ t' = Ctx (Some m') b /\ (tells o /\ e = e0 \/ ~ tells o /\ e = None)) \/
  (idle (h, m) o /\ h' = h /\ t' = Ctx (Some m) b /\ e = None).
Proof. exact copy_calls. Qed.
Print Assumptions C79_calls_modify_the_copy.
(** If all modifications succeed, the model handed out is the one a modify transaction would
    make of the clone. *)
Theorem C79_copies_become_what_originals_would :
  forall ord os os' h m h' m', all_meant ord (h, m) os os' (h', m') -> consistent h' m' = Some true ->
  commit_modify ord (Mtx true os') (h, m) = Some (Mtx false os', (h', m'), None) /\
  exists t, copy_run ord os h (Ctx (Some m) true) = Some (h', t) /\ commit_copy h' t = Some (Some m', Ctx None true).
Proof. exact copies_like_originals. Qed.
Print Assumptions C79_copies_become_what_originals_would.
(** Careful calls are defined, the copy is always handed out, and copy and original are in
    good condition. *)
Theorem C79_careful_copies_are_handed_out :
  forall ord map_order h m, is_order ord -> (forall l, Permutation (map_order l) l) -> sound h m -> root_name_free m ->
  exists h1 m1, open_copy ord map_order h m = Some (h1, Ctx (Some m1) true) /\ cloned h m h1 m1 /\
  forall os, careful_copy ord (h1, m1) os -> exists h2 m2, copy_run ord os h1 (Ctx (Some m1) true) = Some (h2, Ctx (Some m2) true) /\ commit_copy h2 (Ctx (Some m2) true) = Some (Some m2, Ctx None true) /\ sound h2 m2 /\ sound h2 m.
Proof. exact careful_copies. Qed.
Print Assumptions C79_careful_copies_are_handed_out.
Example C79_example :
  made (fst world78) (snd world78) /\ root_name_free (snd world78) /\ open_copy order kept_map (fst world78) (snd world78) = Some (fst copy78, Ctx (Some (snd copy78)) true) /\ careful_copy order copy78 calls79 /\
  (let* (h2, t2) := copy_run order calls79 (fst copy78) (Ctx (Some (snd copy78)) true) in shown79 h2 t2) = Some ([T "copy"; T "g"], [T "g"; T "a"; T "b"; T "base"; T "x"]) /\
  all_meant order copy78 [OSetName (T "copy"); OSetCommit (T "c")] [OSetName (T "copy"); OSetCommit (T "c")] (after (OSetCommit (T "c")) (after (OSetName (T "copy")) copy78)).
Proof. exact copy_example. Qed.
(** A feature added without an error is below the feature asked for: false, if that one is not
    in the copy any more it is below the root. *)
Theorem C79_added_features_are_below_the_feature_asked_for_refuted :
  exists ord map_order h m p f h1 t1 h2 t2 h3 t3 m' t4 i r,
  is_order ord /\ (forall l, Permutation (map_order l) l) /\ sound h m /\ In p (map snd (m_features m)) /\ m_root m <> Some p /\ open_copy ord map_order h m = Some (h1, t1) /\
  copy_exec ord (ORemoveFeature (ByPtr p) false) h1 t1 = Some (h2, t2, None) /\ copy_exec ord (OAddFeature f (Some p)) h2 t2 = Some (h3, t3, None) /\
  commit_copy h3 t3 = Some (Some m', t4) /\ get_feature m' (f_name f) = Some i /\ m_root m' = Some r /\ feature_above h3 i r.
Proof. exact wrong_parent. Qed.
Print Assumptions C79_added_features_are_below_the_feature_asked_for_refuted.
(** A copy is handed out only if no call was refused, as modify transactions stop: false. *)
Theorem C79_refused_calls_stop_the_transaction_refuted :
  exists ord map_order h m h1 m1 o o' h2 t2 e h3 t3 m' t4,
  is_order ord /\ (forall l, Permutation (map_order l) l) /\ sound h m /\ open_copy ord map_order h m = Some (h1, Ctx (Some m1) true) /\
  copy_exec ord o h1 (Ctx (Some m1) true) = Some (h2, t2, Some e) /\ copy_exec ord o' h2 t2 = Some (h3, t3, None) /\ commit_copy h3 t3 = Some (Some m', t4) /\ m_name m' <> m_name m /\
  exists w t, commit_modify ord (Mtx true [o; o']) (h1, m1) = Some (t, w, Some e) /\ m_name (snd w) = m_name m.
Proof. exact not_aborted. Qed.
Print Assumptions C79_refused_calls_stop_the_transaction_refuted.
