(** * Running the intents of SIR *)

From Coq Require Import ZArith String Ascii List Bool Arith Lia Relations.
From Verif Require Import Py PyFacts ReprProofs Effects EffectsFacts Solver CoreModule CoreProofs InferenceModule Sql SqliteDataSource DataSpec SqliteProofs2
  SimpleDataSource Memory MemoryProofs Pipeline FragmentModel TalkModel SirModel SirSpec SirProofs2.
Import ListNotations.
Local Open Scope nat_scope.
Local Open Scope string_scope.
Local Open Scope list_scope.

Definition rows_of (facts : list (string * string)) : list (list value) := map (fun f => [VStr (fst f); VStr (snd f)]) facts.
(** the model when these facts have been told, and this is in the output buffer *)
Definition state (rows : list (list value)) (out : sds_store) : sir :=
  mkSir (mkConn sir_tables (("isa", mkTbl ["entity"; "type"] [] rows) :: tl sir_tables)) sir_rules out (mkConn dialog_tables dialog_tables).
Definition typed (t : string) : sds_store := [("output_type", [[("type", VStr t)]])].

Lemma start_state : sir_start = state [] [].
Proof. reflexivity. Qed.

(** ** rows that are the same *)

Lemma add_same (r : value) k : fold_left add_row (repeat r k) [r] = [r].
Proof.
  induction k as [|k IH]; [reflexivity|]. cbn [repeat fold_left]. unfold add_row at 2. cbn [existsb]. rewrite String.eqb_refl. exact IH.
Qed.
Lemma finish_same {W} args b row k (w : W) : length row = length args ->
  match_args (VList row) b 0 args b false w = (Ok (b, false), w) ->
  finish args b (QRows (repeat (VList row) k)) w = (Ok (SList (match k with 0 => [] | _ => [b] end)), w).
Proof.
  intros El Em. destruct k as [|k]; [reflexivity|]. unfold finish. cbn [repeat fold_left]. change (add_row [] (VList row)) with [VList row]. rewrite !add_same.
  cbn [check_first_row]. apply Nat.eqb_eq in El. rewrite El. unfold create_results. cbn [foldM]. unfold bind. cbn [ret]. rewrite Em. reflexivity.
Qed.

(** ** rules *)

Definition rule_rows (sv : solver_if sir) (rs : list rule) (args : list value) (b : binding) : M sir (list (list value)) :=
  foldM (fun acc r => bind (solve_rule sv r args b) (fun x => ret (acc ++ x))) [] rs.
Lemma inferred n p rs args b rows out : find_relations sir_mods (state rows out) p = [mkRel p [] (handle_rule rb_lens) None] -> p <> DISJUNCTION ->
  rules_get p sir_rules = Some rs ->
  solve sir_mods (S n) (VList [VTuple (VStr p :: args)]) b (state rows out) =
  bind (rule_rows (solver_at sir_mods n) rs args b) (fun r => finish args b (QRows (map VList r))) (state rows out).
Proof.
  intros Hf Hp Hr. rewrite (single_solve sir_mods n p _ args b _ Hf Hp). cbn [r_query r_pred r_cols]. unfold handle_rule.
  unfold bind at 1 2. cbn [get c_pred c_args c_binding]. change (lget rb_lens (state rows out)) with sir_rules. rewrite Hr.
  fold (rule_rows (solver_at sir_mods n) rs args b). unfold bind. destruct (rule_rows (solver_at sir_mods n) rs args b (state rows out)) as [[r|e|] w1]; reflexivity.
Qed.

Lemma rule_ok sv r args b vars rb a l bs (w w1 : sir) : rule_variables r = Some vars -> ru_body r = VList (a :: l) ->
  bind_head b (tl (ru_head r)) args (filter (fun kv => negb (existsb (String.eqb (fst kv)) vars)) b) = Some rb ->
  sv_solve sv (ru_body r) rb w = (Ok (SList bs), w1) ->
  solve_rule sv r args b w = (Ok (match head_rows bs (tl (ru_head r)) args with Some rs => rs | None => [] end), w1).
Proof.
  intros Hv Hb Hh E. unfold solve_rule. rewrite Hv.
  assert (Ev : (match b with [] => ret [] | _ :: _ => or_throw TypeErr (Some vars) end) w = (Ok (match b with [] => [] | _ => vars end), w)) by (now destruct b).
  unfold bind at 1. rewrite Ev.
  replace (filter (fun kv : string * value => negb (existsb (String.eqb (fst kv)) match b with [] => [] | _ :: _ => vars end)) b)
    with (filter (fun kv : string * value => negb (existsb (String.eqb (fst kv)) vars)) b) by (now destruct b).
  rewrite Hh, Hb in *. unfold bind at 1. cbn [elements or_throw ret]. unfold bind at 1 2. rewrite E. cbn [sres_items ret].
  destruct (head_rows bs (tl (ru_head r)) args); reflexivity.
Qed.
Lemma rule_fuel sv r args b vars rb a l (w w1 : sir) : rule_variables r = Some vars -> ru_body r = VList (a :: l) ->
  bind_head b (tl (ru_head r)) args (filter (fun kv => negb (existsb (String.eqb (fst kv)) vars)) b) = Some rb ->
  sv_solve sv (ru_body r) rb w = (OutOfFuel, w1) ->
  solve_rule sv r args b w = (OutOfFuel, w1).
Proof.
  intros Hv Hb Hh E. unfold solve_rule. rewrite Hv.
  assert (Ev : (match b with [] => ret [] | _ :: _ => or_throw TypeErr (Some vars) end) w = (Ok (match b with [] => [] | _ => vars end), w)) by (now destruct b).
  unfold bind at 1. rewrite Ev.
  replace (filter (fun kv : string * value => negb (existsb (String.eqb (fst kv)) match b with [] => [] | _ :: _ => vars end)) b)
    with (filter (fun kv : string * value => negb (existsb (String.eqb (fst kv)) vars)) b) by (now destruct b).
  rewrite Hh, Hb in *. unfold bind at 1. cbn [elements or_throw ret]. unfold bind at 1 2. rewrite E. reflexivity.
Qed.
Fixpoint fold_rules (sv : solver_if sir) (rs : list rule) (args : list value) (b : binding) (acc : list (list value)) : M sir (list (list value)) :=
  match rs with
  | [] => ret acc
  | r :: rest => bind (solve_rule sv r args b) (fun x => fold_rules sv rest args b (acc ++ x))
  end.
Lemma rule_rows_fold sv rs args b w : rule_rows sv rs args b w = fold_rules sv rs args b [] w.
Proof.
  unfold rule_rows. generalize (@nil (list value)) as acc. revert w. induction rs as [|r rs IH]; intros w acc; [reflexivity|].
  cbn [foldM fold_rules]. unfold bind at 1 2. unfold bind at 2. destruct (solve_rule sv r args b w) as [[x|e|] w1]; [|reflexivity|reflexivity]. cbn [ret]. apply IH.
Qed.

Section Steps.
  Context {W : Type}.
  Variable mods : list (modul W).
  Lemma then_solve n a1 a2 b b1 b2 (w w1 w2 : W) : solve mods n (VList [a1]) b w = (Ok (SList [b1]), w1) ->
    solve mods n (VList [a2]) b1 w1 = (Ok (SList [b2]), w2) -> solve mods n (VList [a1; a2]) b w = (Ok (SList [b2]), w2).
  Proof.
    destruct n; [discriminate|]. unfold solve. cbn [solver_at sv_solve]. unfold solve_F. cbn [solve_atoms]. intros E1 E2.
    unfold bind at 1. rewrite E1. unfold bind at 1. cbn [sres_items ret foldM]. unfold bind at 1 2 3. rewrite E2. reflexivity.
  Qed.
  Lemma then_more n a1 a2 a3 b b1 b2 (w w1 w2 : W) : solve mods n (VList [a1]) b w = (Ok (SList [b1]), w1) ->
    solve mods n (VList [a2; a3]) b1 w1 = (Ok (SList [b2]), w2) -> solve mods n (VList [a1; a2; a3]) b w = (Ok (SList [b2]), w2).
  Proof.
    destruct n; [discriminate|]. unfold solve. cbn [solver_at sv_solve]. unfold solve_F. intros E1 E2.
    change (solve_atoms mods (solver_at mods n) [a1; a2; a3] b) with
      (bind (solve_single mods (solver_at mods n) a1 b) (fun r => bind (sres_items r) (fun bs => bind (foldM (fun acc b' =>
         bind (solve_atoms mods (solver_at mods n) [a2; a3] b') (fun rr => bind (sres_items rr) (fun rs => ret (fold_left add_binding rs acc)))) [] bs)
         (fun result => ret (SList result))))).
    unfold bind at 1. cbn [solve_atoms] in E1. rewrite E1. unfold bind at 1. cbn [sres_items ret foldM]. unfold bind at 1 2 3. rewrite E2. reflexivity.
  Qed.
  Lemma then_nothing n a1 a2 l b (w w1 : W) : solve mods n (VList [a1]) b w = (Ok (SList []), w1) ->
    solve mods n (VList (a1 :: a2 :: l)) b w = (Ok (SList []), w1).
  Proof.
    destruct n; [discriminate|]. unfold solve. cbn [solver_at sv_solve]. unfold solve_F. intros E1. cbn [solve_atoms] in E1.
    cbn [solve_atoms]. unfold bind at 1. rewrite E1. reflexivity.
  Qed.
  Lemma then_fuel n a1 l b (w w1 : W) : solve mods n (VList [a1]) b w = (OutOfFuel, w1) ->
    solve mods n (VList (a1 :: l)) b w = (OutOfFuel, w1).
  Proof.
    destruct n; [trivial|]. unfold solve. cbn [solver_at sv_solve]. unfold solve_F. intros E1. cbn [solve_atoms] in E1.
    destruct l as [|a2 l]; [exact E1|]. cbn [solve_atoms]. unfold bind at 1. rewrite E1. reflexivity.
  Qed.
End Steps.

(** ** being told *)

Definition body_of (p : string) (i : nat) : value :=
  match rules_get p sir_rules with Some rs => match nth_error rs i with Some r => ru_body r | None => VNone end | None => VNone end.
Definition fact (x y : string) : value := VList [isa_atom (VStr x) (VStr y)].
Definition unread : binding := [("A", VNone); ("B", VNone)].

Lemma teach_body n rows x y :
  solve sir_mods (9 + n) (body_of "intent_teach" 0) [("A", fact x y)] (state rows []) = (Ok (SList [[("A", fact x y)]]), state (rows ++ [[VStr x; VStr y]]) (typed "understand")).
Proof. vm_compute. reflexivity. Qed.
Lemma check_0 n rows x y :
  solve sir_mods (16 + n) (body_of "check_claim" 0) [("Atom", fact x y)] (state rows []) = (Ok (SList [("Atom", fact x y) :: unread]), state rows []).
Proof. vm_compute. reflexivity. Qed.
Lemma check_1 n rows x y :
  solve sir_mods (16 + n) (body_of "check_claim" 1) [("Atom", fact x y)] (state rows []) = (Ok (SList [("Atom", fact x y) :: unread]), state rows []).
Proof. vm_compute. reflexivity. Qed.

Lemma match_const {W} v (w : W) : (forall x, v <> VVar x) -> match_args (VList [v]) [] 0 [v] [] false w = (Ok ([], false), w).
Proof. intros Hv. destruct v; try (now destruct (Hv name)); cbn [match_args]; unfold bind; cbn [subscript ret nth_error]; rewrite py_eq_refl, andb_false_r; reflexivity. Qed.

Definition rule_at (p : string) (i : nat) : rule :=
  match rules_get p sir_rules with Some rs => nth i rs (mkRule [] VNone) | None => mkRule [] VNone end.

Lemma run_teach n rows x y :
  solve sir_mods (10 + n) (teaches x y) [] (state rows []) = (Ok (SList [[]]), state (rows ++ [[VStr x; VStr y]]) (typed "understand")).
Proof.
  unfold teaches. fold (fact x y). change (10 + n) with (S (9 + n)).
  rewrite (inferred (9 + n) "intent_teach" [rule_at "intent_teach" 0]); [|reflexivity|discriminate|reflexivity].
  unfold bind at 1. rewrite rule_rows_fold. cbn [fold_rules]. unfold bind at 1.
  erewrite rule_ok; [|reflexivity|reflexivity|reflexivity|apply (teach_body n rows x y)].
  change (tl (ru_head (rule_at "intent_teach" 0))) with [VVar "A"]. cbn [head_rows head_row app map ret fact]. fold (fact x y).
  change [VList [fact x y]] with (repeat (VList [fact x y]) 1). rewrite finish_same; [reflexivity|reflexivity|]. apply match_const. discriminate.
Qed.

Lemma checked n rows x y :
  solve sir_mods (17 + n) (VList [VTuple [VStr "check_claim"; VVar "Atom"]]) [("Atom", fact x y)] (state rows []) =
  (Ok (SList [[("Atom", fact x y)]]), state rows []).
Proof.
  change (17 + n) with (S (16 + n)).
  rewrite (inferred (16 + n) "check_claim" [rule_at "check_claim" 0; rule_at "check_claim" 1]); [|reflexivity|discriminate|reflexivity].
  unfold bind at 1. rewrite rule_rows_fold. cbn [fold_rules]. unfold bind at 1.
  erewrite rule_ok; [|reflexivity|reflexivity|reflexivity|apply (check_0 n rows x y)].
  unfold bind at 1.
  erewrite rule_ok; [|reflexivity|reflexivity|reflexivity|apply (check_1 n rows x y)].
  change (tl (ru_head (rule_at "check_claim" 0))) with [VVar "Atom"]. change (tl (ru_head (rule_at "check_claim" 1))) with [VVar "Atom"].
  cbn [head_rows head_row app map ret bget String.eqb Ascii.eqb Bool.eqb].
  change [VList [fact x y]; VList [fact x y]] with (repeat (VList [fact x y]) 2). rewrite finish_same; reflexivity.
Qed.

Lemma claim_body_0 n rows x y :
  solve sir_mods (18 + n) (body_of "intent_claim" 0) [("Atom", fact x y)] (state rows []) = (Ok (SList []), state rows []).
Proof.
  change (body_of "intent_claim" 0) with (VList [VTuple [VStr "not"; VList [VTuple [VStr "check_claim"; VVar "Atom"]]];
    VTuple [VStr "store"; VList [VTuple [VStr "output_type"; VStr "impossible"]]]]).
  apply then_nothing. change (18 + n) with (S (17 + n)).
  erewrite single_solve; [|reflexivity|discriminate]. cbn [r_query]. unfold q_not, item.
  unfold bind at 1 2. cbn [db_values map db_value nth_error ret c_binding]. unfold bind at 1.
  fold (solve sir_mods (17 + n)). pose proof (checked n rows x y) as E. unfold solve in E. rewrite E. reflexivity.
Qed.
Lemma claim_stores n rows x y :
  solve sir_mods (9 + n) (VList [VTuple [VStr "store"; VVar "Atom"]; VTuple [VStr "store"; VList [VTuple [VStr "output_type"; VStr "understand"]]]])
    [("Atom", fact x y)] (state rows []) = (Ok (SList [[("Atom", fact x y)]]), state (rows ++ [[VStr x; VStr y]]) (typed "understand")).
Proof. vm_compute. reflexivity. Qed.
Lemma claim_body_1 n rows x y :
  solve sir_mods (18 + n) (body_of "intent_claim" 1) [("Atom", fact x y)] (state rows []) =
  (Ok (SList [[("Atom", fact x y)]]), state (rows ++ [[VStr x; VStr y]]) (typed "understand")).
Proof.
  change (body_of "intent_claim" 1) with (VList [VTuple [VStr "check_claim"; VVar "Atom"]; VTuple [VStr "store"; VVar "Atom"];
    VTuple [VStr "store"; VList [VTuple [VStr "output_type"; VStr "understand"]]]]).
  eapply then_more; [apply (checked (1 + n))|]. apply (claim_stores (9 + n)).
Qed.

Lemma run_claim n rows x y :
  solve sir_mods (19 + n) (claims x y) [] (state rows []) = (Ok (SList [[]]), state (rows ++ [[VStr x; VStr y]]) (typed "understand")).
Proof.
  unfold claims. fold (fact x y). change (19 + n) with (S (18 + n)).
  rewrite (inferred (18 + n) "intent_claim" [rule_at "intent_claim" 0; rule_at "intent_claim" 1]); [|reflexivity|discriminate|reflexivity].
  unfold bind at 1. rewrite rule_rows_fold. cbn [fold_rules]. unfold bind at 1.
  erewrite rule_ok; [|reflexivity|reflexivity|reflexivity|apply (claim_body_0 n rows x y)].
  unfold bind at 1.
  erewrite rule_ok; [|reflexivity|reflexivity|reflexivity|apply (claim_body_1 n rows x y)].
  change (tl (ru_head (rule_at "intent_claim" 0))) with [VVar "Atom"]. change (tl (ru_head (rule_at "intent_claim" 1))) with [VVar "Atom"].
  cbn [head_rows head_row app map ret fact]. fold (fact x y).
  change [VList [fact x y]] with (repeat (VList [fact x y]) 1). rewrite finish_same; [reflexivity|reflexivity|]. apply match_const. discriminate.
Qed.
