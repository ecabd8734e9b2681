(** Properties C16, C17 and C18: configurations. *)
From Coq Require Import List Ascii String ZArith NArith Bool Permutation.
From Verif Require Import Text NumSpec ConfigurationModel ConfigurationSpec ConfigurationProofs JsonText.
Import ListNotations.

(** ** C16: configuration values are typed predictably and stably *)

Theorem C16_typing : forall t v, convert t = v <-> typed t v.
Proof. exact convert_spec. Qed.
Print Assumptions C16_typing.

Theorem C16_typing_unique : forall t v w, typed t v -> typed t w -> v = w.
Proof. exact typed_fun. Qed.
Print Assumptions C16_typing_unique.

Theorem C16_stable : forall t, convert (as_string (convert t)) = convert t.
Proof. exact convert_stable. Qed.
Print Assumptions C16_stable.

Theorem C16_texts : forall t,
  (typed t (VBool true) -> as_string (convert t) = T "true") /\
  (typed t (VBool false) -> as_string (convert t) = T "false") /\
  (forall z, typed t (VInt z) -> as_string (convert t) = print_Z z) /\
  (typed t (VStr t) -> as_string (convert t) = t).
Proof. exact as_string_spec. Qed.
Print Assumptions C16_texts.

Example C16_example :
  typed (T "TRUE") (VBool false) /\ typed (T "-0x1F") (VInt (-31)) /\ typed (T "017") (VInt 15) /\
  typed (T "08") (VStr (T "08")) /\ typed (T "9223372036854775808") (VStr (T "9223372036854775808")) /\
  typed (T "-9223372036854775808") (VInt (-9223372036854775808)) /\ typed (T "+1") (VStr (T "+1")).
Proof. repeat split; apply convert_spec; vm_compute; reflexivity. Qed.

(** ** C17: a configuration is a last-write-wins map *)

Theorem C17_last_write_wins : forall ps n s, option_value (set_options [] ps) n = Some s <->
  exists t v, last_given ps n t /\ typed t v /\ s = as_string v.
Proof. exact lookup_spec. Qed.
Print Assumptions C17_last_write_wins.

Theorem C17_never_set : forall ps n, option_value (set_options [] ps) n = None <-> ~ In n (map fst ps).
Proof. exact lookup_none. Qed.
Print Assumptions C17_never_set.

Example C17_example :
  let c := set_options [] [(T "a", T "0x10"); (T "A", T "x"); (T "b", T "True"); (T "a", T "7")] in
  option_value c (T "a") = Some (T "7") /\ option_value c (T "A") = Some (T "x") /\
  option_value c (T "b") = Some (T "false") /\ option_value c (T "B") = None.
Proof. vm_compute. repeat split. Qed.

(** ** C18: dumped configurations load back *)

Theorem C18_dump_load : forall J ok order ps, json_correct J ok -> (forall d, Permutation d (order d)) ->
  let c := set_options [] ps in
  Forall (fun o => ok (fst o) /\ ok (as_string (snd o))) c ->
  exists d, load J (dump J order c) = Some d /\ same_options d c /\
    forall order', (forall e, Permutation e (order' e)) -> dump J order' d = dump J order c.
Proof. exact dump_load_sets. Qed.
Print Assumptions C18_dump_load.

Theorem C18_json_instance : json_correct string_json (fun _ => True).
Proof. exact string_json_correct. Qed.
Print Assumptions C18_json_instance.

(** A text loads exactly when it is an object of strings; the options are then the
    fields set one after the other. *)
Theorem C18_load : forall J t c, load J t = Some c <->
  exists fs, j_parse J t = Some (JObject (map (fun f => (fst f, JString (snd f))) fs)) /\
    c = set_options [] fs.
Proof. exact load_spec. Qed.
Print Assumptions C18_load.

Theorem C18_iteration : forall c, iterate_mut c = c /\ iterate_const c = [].
Proof. exact iterate_both. Qed.
Print Assumptions C18_iteration.

(** Iterating a const configuration is not iterating the configuration. *)
Theorem C18_const_iteration_refuted : exists c, iterate_const c <> iterate_mut c.
Proof. exact iterate_differ. Qed.
Print Assumptions C18_const_iteration_refuted.

Example C18_example :
  let c := set_options [] [(T "b", T "0x10"); (T "a", T "tr""ue"); (T "b", T "True")] in
  dump string_json (@rev _) c = T "{""a"":""tr\""ue"",""b"":""false""}" /\
  load string_json (dump string_json (@rev _) c) = Some [(T "a", VStr (T "tr""ue")); (T "b", VBool false)].
Proof. vm_compute. repeat split. Qed.
