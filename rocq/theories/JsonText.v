(** A printer and reader for JSON objects of strings that satisfies
    [json_correct]; it follows the text format of llvm/lib/Support/JSON.cpp
    ([quote], [OStream::objectBegin], [Parser::parseString]) for ASCII texts.
    It is not part of the modelled project and serves as instance of the JSON
    library in examples. *)
From Coq Require Import List Ascii String ZArith NArith Arith Bool Lia Permutation Sorted.
From Verif Require Import Text TextProofs ConfigurationModel ConfigurationSpec.
Import ListNotations.

Definition hex_digit (n : nat) : ascii := ascii_of_nat (if n <? 10 then 48 + n else 87 + n).

Definition quote_char (c : ascii) : text :=
  if Ascii.eqb c """" || Ascii.eqb c "\" then ["\"%char; c]
  else if 32 <=? code c then [c]
  else if code c =? 9 then ["\"; "t"]%char
  else if code c =? 10 then ["\"; "n"]%char
  else if code c =? 13 then ["\"; "r"]%char
  else "\"%char :: "u"%char :: "0"%char :: "0"%char :: [hex_digit (code c / 16); hex_digit (code c mod 16)].

Definition quote (t : text) : text := """"%char :: flat_map quote_char t ++ [""""%char].

Fixpoint key_leb (a b : text) : bool :=
  match a, b with
  | [], _ => true
  | _ :: _, [] => false
  | x :: a', y :: b' => (code x <? code y) || ((code x =? code y) && key_leb a' b')
  end.

Fixpoint insert_field (f : text * text) (l : list (text * text)) : list (text * text) :=
  match l with
  | [] => [f]
  | g :: r => if key_leb (fst f) (fst g) then f :: l else g :: insert_field f r
  end.
Definition sort_fields (l : list (text * text)) : list (text * text) := fold_right insert_field [] l.

Definition field_text (f : text * text) : text := quote (fst f) ++ ":"%char :: quote (snd f).

Fixpoint fields_text (l : list (text * text)) : text :=
  match l with
  | [] => []
  | [f] => field_text f
  | f :: r => field_text f ++ ","%char :: fields_text r
  end.

Definition print_object (l : list (text * text)) : text :=
  "{"%char :: fields_text (sort_fields l) ++ ["}"%char].

Definition hex_value (c : ascii) : option nat :=
  if is_digit c then Some (code c - 48)
  else if (97 <=? code c) && (code c <=? 102) then Some (code c - 87) else None.

(** Reads up to the closing quote. *)
Fixpoint read_string (t : text) : option (text * text) :=
  match t with
  | [] => None
  | c :: r =>
      if Ascii.eqb c """" then Some ([], r)
      else if Ascii.eqb c "\" then
        match r with
        | "u"%char :: "0"%char :: "0"%char :: h :: l :: r' =>
            match hex_value h, hex_value l, read_string r' with
            | Some a, Some b, Some (s, q) => Some (ascii_of_nat (16 * a + b) :: s, q)
            | _, _, _ => None
            end
        | e :: r' =>
            match read_string r' with
            | Some (s, q) =>
                if Ascii.eqb e """" || Ascii.eqb e "\" then Some (e :: s, q)
                else if Ascii.eqb e "t" then Some (ascii_of_nat 9 :: s, q)
                else if Ascii.eqb e "n" then Some (ascii_of_nat 10 :: s, q)
                else if Ascii.eqb e "r" then Some (ascii_of_nat 13 :: s, q)
                else None
            | None => None
            end
        | [] => None
        end
      else if 32 <=? code c then
        match read_string r with Some (s, q) => Some (c :: s, q) | None => None end
      else None
  end.

Fixpoint read_fields (fuel : nat) (t : text) : option (list (text * text)) :=
  match fuel with
  | 0 => None
  | S n =>
      match t with
      | """"%char :: r =>
          match read_string r with
          | Some (k, ":"%char :: """"%char :: q) =>
              match read_string q with
              | Some (v, ["}"%char]) => Some [(k, v)]
              | Some (v, ","%char :: p) =>
                  match read_fields n p with Some l => Some ((k, v) :: l) | None => None end
              | _ => None
              end
          | _ => None
          end
      | _ => None
      end
  end.

Definition read_object (t : text) : option jvalue :=
  match t with
  | ["{"%char; "}"%char] => Some (JObject [])
  | "{"%char :: r =>
      option_map (fun l => JObject (map (fun f => (fst f, JString (snd f))) l)) (read_fields (List.length r) r)
  | _ => None
  end.

Definition string_json : json := Json print_object read_object.

(** ** It satisfies the contract *)

Lemma read_quote_char c s q r : read_string r = Some (s, q) -> read_string (quote_char c ++ r) = Some (c :: s, q).
Proof.
  intros H. destruct c as [[] [] [] [] [] [] [] []];
  cbv beta iota zeta delta [quote_char Ascii.eqb Bool.eqb orb code nat_of_ascii N_of_ascii N_of_digits N.mul N.add
    Pos.mul Pos.add Pos.succ N.to_nat Pos.to_nat Pos.iter_op Nat.leb Nat.eqb Nat.add hex_digit Nat.ltb Nat.div Nat.modulo Nat.divmod fst snd app];
  simpl; rewrite H; reflexivity.
Qed.

Lemma read_quoted t r : read_string (flat_map quote_char t ++ """"%char :: r) = Some (t, r).
Proof.
  induction t as [|c t IH]; [reflexivity|]. cbn [flat_map]. rewrite <- app_assoc. apply read_quote_char. exact IH.
Qed.

Lemma read_fields_S n r : read_fields (S n) (""""%char :: r) =
  match read_string r with
  | Some (k, ":"%char :: """"%char :: q) =>
      match read_string q with
      | Some (v, ["}"%char]) => Some [(k, v)]
      | Some (v, ","%char :: p) =>
          match read_fields n p with Some l => Some ((k, v) :: l) | None => None end
      | _ => None
      end
  | _ => None
  end.
Proof. reflexivity. Qed.

Lemma quote_app t r : quote t ++ r = """"%char :: flat_map quote_char t ++ """"%char :: r.
Proof. unfold quote. simpl. rewrite <- app_assoc. reflexivity. Qed.

Lemma field_text_app k v r : field_text (k, v) ++ r =
  """"%char :: flat_map quote_char k ++ """"%char :: ":"%char :: """"%char :: flat_map quote_char v ++ """"%char :: r.
Proof.
  unfold field_text. cbn [fst snd]. rewrite <- app_assoc, quote_app. cbn [app]. rewrite quote_app. reflexivity.
Qed.

Lemma read_fields_text l n : l <> [] -> List.length l <= n ->
  read_fields n (fields_text l ++ ["}"%char]) = Some l.
Proof.
  revert n. induction l as [|[k v] l IH]; intros n N L; [congruence|].
  destruct n as [|n]; [simpl in L; lia|].
  destruct l as [|f l].
  - cbn [fields_text]. rewrite field_text_app, read_fields_S, read_quoted, read_quoted. reflexivity.
  - assert (E : fields_text ((k, v) :: f :: l) = field_text (k, v) ++ ","%char :: fields_text (f :: l)) by reflexivity.
    rewrite E, <- app_assoc, field_text_app, read_fields_S, read_quoted, read_quoted. cbn [app].
    rewrite IH; [reflexivity|discriminate|simpl in *; lia].
Qed.

Lemma key_leb_total a b : key_leb a b = true \/ key_leb b a = true.
Proof.
  revert b. induction a as [|x a IH]; destruct b as [|y b]; simpl; auto.
  destruct (code x <? code y) eqn:E1; auto. destruct (code y <? code x) eqn:E2; auto.
  assert (code x = code y) as -> by lia. rewrite Nat.eqb_refl. simpl. auto.
Qed.

Lemma key_leb_trans a b c : key_leb a b = true -> key_leb b c = true -> key_leb a c = true.
Proof.
  revert b c. induction a as [|x a IH]; intros [|y b] [|z c]; simpl; auto; try discriminate.
  intros H1 H2. apply orb_true_iff in H1, H2. rewrite !andb_true_iff in *.
  apply orb_true_iff. rewrite andb_true_iff. destruct H1 as [H1|[H1 H1']], H2 as [H2|[H2 H2']].
  - left. lia.
  - left. lia.
  - left. lia.
  - right. split; [lia|]. eapply IH; eauto.
Qed.

Lemma key_leb_antisym a b : key_leb a b = true -> key_leb b a = true -> a = b.
Proof.
  revert b. induction a as [|x a IH]; destruct b as [|y b]; simpl; auto; try discriminate.
  intros H1 H2. apply orb_true_iff in H1, H2. rewrite !andb_true_iff in *.
  destruct H1 as [H1|[H1 H1']], H2 as [H2|[H2 H2']]; try lia.
  f_equal; auto. apply code_inj. lia.
Qed.

Definition field_le (f g : text * text) : Prop := key_leb (fst f) (fst g) = true.

Lemma insert_perm f l : Permutation (f :: l) (insert_field f l).
Proof.
  induction l as [|g l IH]; simpl; auto. destruct (key_leb (fst f) (fst g)); auto.
  rewrite perm_swap. constructor. auto.
Qed.

Lemma sort_perm l : Permutation l (sort_fields l).
Proof.
  induction l as [|f l IH]; simpl; auto. rewrite <- insert_perm. constructor. auto.
Qed.

Lemma insert_sorted f l : StronglySorted field_le l -> StronglySorted field_le (insert_field f l).
Proof.
  induction 1 as [|g l S IH F]; simpl.
  - constructor; constructor.
  - destruct (key_leb (fst f) (fst g)) eqn:E.
    + constructor; [constructor; auto|]. constructor; auto. eapply Forall_impl; [|exact F].
      intros h H. eapply key_leb_trans; eauto.
    + constructor; auto. eapply Permutation_Forall; [apply insert_perm|]. constructor; auto.
      destruct (key_leb_total (fst f) (fst g)); auto; congruence.
Qed.

Lemma sort_sorted l : StronglySorted field_le (sort_fields l).
Proof. induction l; simpl; [constructor|]. apply insert_sorted; auto. Qed.

Lemma sorted_unique l l' : StronglySorted field_le l -> StronglySorted field_le l' ->
  NoDup (map fst l) -> Permutation l l' -> l = l'.
Proof.
  intros S. revert l'. induction S as [|f l S IH F]; intros l' S' N P.
  - apply Permutation_nil in P. auto.
  - destruct l' as [|g l']; [apply Permutation_sym, Permutation_nil in P; discriminate|].
    assert (f = g) as <-.
    { assert (In f (g :: l')) as [Hf|Hf] by (eapply Permutation_in; [exact P|left; auto]); auto.
      assert (In g (f :: l)) as [Hg|Hg] by (eapply Permutation_in; [apply Permutation_sym; exact P|left; auto]); auto.
      inversion S'; subst. rewrite Forall_forall in F, H2.
      assert (E : fst f = fst g) by (apply key_leb_antisym; [apply F; auto|apply H2; auto]).
      simpl in N. inversion N. exfalso. apply H3. rewrite E. apply in_map. auto. }
    f_equal. inversion S'; subst. apply IH; auto.
    + inversion N; auto.
    + eapply Permutation_cons_inv; eauto.
Qed.

Lemma sort_unique l l' : NoDup (map fst l) -> Permutation l l' -> sort_fields l = sort_fields l'.
Proof.
  intros N P. apply sorted_unique; auto using sort_sorted.
  - eapply Permutation_NoDup; [|exact N]. apply Permutation_map, sort_perm.
  - rewrite <- sort_perm. rewrite P. apply sort_perm.
Qed.

Lemma fields_text_length l : List.length l <= List.length (fields_text l).
Proof.
  induction l as [|f [|g l] IH]; [simpl; lia| |].
  - cbn [fields_text]. unfold field_text, quote. simpl. lia.
  - change (fields_text (f :: g :: l)) with (field_text f ++ ","%char :: fields_text (g :: l)).
    rewrite app_length. simpl List.length in *. lia.
Qed.

Lemma fields_text_head f l : exists r, fields_text (f :: l) = """"%char :: r.
Proof. destruct l; simpl; unfold field_text, quote; simpl; eauto. Qed.

Lemma string_json_correct : json_correct string_json (fun _ => True).
Proof.
  intros fs N _. split.
  - intros fs' P. simpl. unfold print_object. rewrite (sort_unique fs fs'); auto.
  - exists (map (fun f => (fst f, JString (snd f))) (sort_fields fs)). split.
    + cbn [string_json j_print j_parse]. unfold print_object. destruct (sort_fields fs) as [|f l] eqn:E; [reflexivity|].
      assert (R : forall r, r <> ["}"%char] -> read_object ("{"%char :: r) =
        option_map (fun l => JObject (map (fun f => (fst f, JString (snd f))) l)) (read_fields (List.length r) r)).
      { intros r Hr. unfold read_object. destruct r as [|c [|d r]]; auto.
        - destruct c as [[] [] [] [] [] [] [] []]; auto. congruence.
        - destruct c as [[] [] [] [] [] [] [] []]; auto. }
      rewrite R.
      * rewrite read_fields_text; [reflexivity|discriminate|].
        rewrite app_length. pose proof (fields_text_length (f :: l)). lia.
      * destruct (fields_text_head f l) as [r ->]. discriminate.
    + apply Permutation_sym, Permutation_map, sort_perm.
Qed.
