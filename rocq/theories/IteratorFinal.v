(** What programs that iterate over configurations see. *)
From Coq Require Import List ZArith Arith Bool Lia.
From Verif Require Import Text FeatureTreeModel ConfigurationModel SolverModel SolverSpec SolverEnumerationProofs SolverFinal IteratorModel IteratorSpec IteratorProofs.
Import ListNotations.
Local Open Scope list_scope.

Lemma for_each_all check : forall fuel s v L s', for_each check fuel s = Some (map inl L, s') -> all_loop check fuel s v = Some (inl (v ++ L)).
Proof.
  induction fuel as [|fuel IH]; intros s v L s' E; [discriminate|]. cbn [for_each] in E. cbn [all_loop]. destruct (get_current check s) as [s1 r]. destruct (get_next check s1) as [s2 n].
  destruct n as [c|e]; cbn [result_bool] in E.
  - destruct (for_each check fuel s2) as [[l s3]|] eqn:F; cbn [bind] in E; [|discriminate]. injection E as E _. destruct L as [|d L]; [discriminate|]. cbn in E. injection E as -> ->.
    rewrite (IH s2 (v ++ [d]) L s3 F), <- app_assoc. reflexivity.
  - injection E as E _. destruct L as [|d [|d' L]]; try discriminate. cbn in E. injection E as ->. reflexivity.
Qed.

Lemma iterators_share check s : reached s -> decides check (s_vars s) (s_asserted s) ->
  exists L, lists_all_solutions (s_vars s) (s_asserted s) L /\
    (forall os es, iterator_run check os (new_iterable s) = Some es <-> does_all L os start es) /\
    exists N, forall fuel, N <= fuel ->
      get_all check fuel s = Some (match L with [] => inr Unsat | _ => inl L end) /\
      forall n, for_each_times check fuel (S n) s = Some (one_loop L :: repeat (later_loop L) n).
Proof.
  intros Re C. destruct (reached_built s Re) as [M D B]. rewrite (solver_eta s M). cbn [s_vars s_asserted].
  destruct (chain_exists check (s_vars s) (s_asserted s) B C) as (l & F & Cl & Ch). exists (map (configuration (s_vars s)) l).
  split; [apply complete_lists; assumption|]. split; [intros os es; apply (run_places check _ _ l Ch); apply matches_start|].
  exists (S (List.length l)). intros fuel Lf. split; [|intros n; apply all_loops; assumption].
  pose proof (first_loop check _ _ l Ch fuel Lf) as E. unfold get_all. destruct l as [|a l].
  - destruct fuel as [|fuel]; [lia|]. cbn [for_each map one_loop] in E. cbn [all_loop map]. destruct (get_current check _) as [s1 r]. destruct (get_next check s1) as [s2 n].
    destruct n as [c|e]; cbn [result_bool] in E; [destruct (for_each check fuel s2) as [[q s3]|]; cbn [bind] in E; [|discriminate]|]; injection E as -> _; reflexivity.
  - cbn [map one_loop] in *. exact (for_each_all check fuel _ [] (configuration (s_vars s) a :: map (configuration (s_vars s)) l) _ E).
Qed.
