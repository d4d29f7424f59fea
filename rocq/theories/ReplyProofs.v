(** * The other intents of Chat-80 and their replies *)

From Coq Require Import ZArith String Ascii List Bool Lia Arith.
From Verif Require Import Py PyFacts Effects EffectsFacts Atoms Solver SolverSpec SolverProofs CoreModule CoreSpec CoreProofs CoreProofs2 CoreProofs3
  InferenceModule TableModule SimpleDataSource Memory MemoryProofs Grammar Generator
  DatalogSpec DatalogProofs FolSpec FolProofs FolProofs2 FolProofs3 FolProofs4
  TalkModel TalkProofs3 TalkProofs4.
Import ListNotations.
Local Open Scope nat_scope.
Local Open Scope string_scope.
Local Open Scope list_scope.

(** the output buffer with a record of two values *)
Definition saying_two (t p c1 c2 : string) (a1 a2 : value) : sds_store := typed t ++ [(p, [[(c1, a1); (c2, a2)]])].

Section Replies.
  Context {V : Type}.
  Variable LR : lens V rulebase.
  Variable tables : V -> string -> option (list (list value)).
  Variable LB : lens V sds_store.
  Variable v : V.
  Variable arity : string -> nat.
  Variable rules : list folrule.
  Hypothesis HB : lens_ok LB.
  Hypothesis HLR : forall s w, lget LR (lset LB s w) = lget LR w.
  Hypothesis Htb : forall s w p, tables (lset LB s w) p = tables w p.
  Hypothesis Hrules : lget LR v = stored_rules rules ++ intent_rules.
  Hypothesis Hempty : lget LB v = [].
  Hypothesis Hnames : forall p, tables v p <> None -> user_pred p.
  Hypothesis Hgood : forall r, In r rules -> good_rule (flat_atom arity) r.
  Hypothesis Hres : forall p, has_relation tables rules v p -> ~ In p reserved.

  Notation mods := (talk_mods LR tables LB).
  Notation buffered := (buffered LB v).

  (** ** finding *)
  Lemma found_rows n var qs R J st rs vss kept E S0 : bget R J = None -> bget E J = Some var -> bget S0 J = Some (VList qs) ->
    solve mods n (VList qs) J (buffered st) = (Ok (SList rs), buffered st) ->
    Forall2 (collected var) rs vss -> first_values [] (concat vss) kept ->
    solve mods (S n) (VList [VTuple [VStr "find_all"; VVar E; VVar S0; VVar R]]) J (buffered st) =
      (Ok (SList [bset R (VList kept) J]), buffered st) /\
    solve mods (S n) (VList [VTuple [VStr "find_one"; VVar E; VVar S0; VVar R]]) J (buffered st) =
      (Ok (SList (match kept with [] => [] | c :: _ => [bset R c J] end)), buffered st).
  Proof.
    intros HR He Hs Es Hc Hk.
    assert (Hf : forall p R', find_values (solver_at mods n) (db_values J [VVar E; VVar S0; R']) (mkCtx p [] [VVar E; VVar S0; R'] J) (buffered st) = (Ok kept, buffered st)).
    { intros p R'. unfold find_values, item. unfold bind at 1 2 3 4. cbn [db_values map db_value nth_error ret]. rewrite He, Hs. cbn [c_binding].
      unfold solve in Es. rewrite Es. cbn [sres_items ret]. exact (find_loop var rs [] vss kept _ Hc Hk). }
    assert (Fin : forall c, finish [VVar E; VVar S0; VVar R] J (QRows [VList [VNone; VNone; c]]) (buffered st) = (Ok (SList [bset R c J]), buffered st)).
    { intros c. rewrite finish_row by reflexivity. unfold bind at 1. erewrite match_args_bound by eassumption. erewrite match_args_bound by eassumption.
      rewrite match_args_unbound by assumption. unfold bind at 1. cbn [subscript nth_error ret]. rewrite HR. reflexivity. }
    split.
    - rewrite (core_solve mods n "find_all" q_find_all _ J (buffered st));
        [|apply (core_alone LR tables LB v arity rules HLR Htb Hrules Hnames Hgood); cbn; auto|reflexivity|discriminate].
      unfold q_find_all. unfold bind at 1 2. rewrite Hf. unfold rows. cbn [ret map]. apply Fin.
    - rewrite (core_solve mods n "find_one" q_find_one _ J (buffered st));
        [|apply (core_alone LR tables LB v arity rules HLR Htb Hrules Hnames Hgood); cbn; auto|reflexivity|discriminate].
      unfold q_find_one. unfold bind at 1 2. rewrite Hf. destruct kept as [|c kept]; [reflexivity|]. unfold rows. cbn [ret map]. apply Fin.
  Qed.

  (** an intent without answers *)
  Lemma run_intent_nothing n p r args rb st w' a body : In (p, [r]) intent_rules -> ru_body r = VList (a :: body) ->
    bind_head [] (tl (ru_head r)) args [] = Some rb ->
    solve mods n (ru_body r) rb (buffered st) = (Ok (SList []), w') ->
    solve mods (S n) (VList [VTuple (VStr p :: args)]) [] (buffered st) = (Ok (SList []), w').
  Proof.
    intros Hp Eb Eh E. destruct (find_intent LR tables LB v rules HLR Htb Hrules Hres p r st Hp) as (Ef & Eg).
    assert (Np : p <> DISJUNCTION) by (intros ->; cbn in Hp; intuition discriminate).
    rewrite (single_solve mods n p _ args [] (buffered st) Ef Np). cbn [r_query r_pred r_cols].
    unfold handle_rule. unfold bind at 1 2. cbn [get c_pred c_args c_binding]. rewrite Eg.
    unfold bind at 1. cbn [foldM]. unfold bind at 1. unfold solve_rule. unfold bind at 1 2. cbn [ret filter]. rewrite Eh.
    rewrite Eb in *. unfold bind at 1. cbn [elements or_throw ret filter]. unfold bind at 1 2. unfold solve in E. rewrite E. reflexivity.
  Qed.

  Lemma values_collected x (rs : list binding) : exists vss, Forall2 (collected (VStr x)) rs vss /\ concat vss = values_of x rs.
  Proof.
    induction rs as [|r rs (vss & H & E)]; [exists []; split; constructor|]. cbn [values_of flat_map].
    destruct (bget x r) as [c|] eqn:Er.
    - exists ([c] :: vss). split; [constructor; [now constructor|exact H]|]. cbn [concat]. now rewrite E.
    - exists ([] :: vss). split; [constructor; [now constructor|exact H]|]. cbn [concat]. now rewrite E.
  Qed.
  Definition row_of (xs : list string) (r : binding) : list value := map (fun x => match bget x r with Some c => c | None => VNone end) xs.
  Lemma rows_collected xs (rs : list binding) :
    exists vss, Forall2 (collected (VList (map VStr xs))) rs vss /\ concat vss = map (fun r => VList (row_of xs r)) rs.
  Proof.
    induction rs as [|r rs (vss & H & E)]; [exists []; split; constructor|]. exists ([VList (row_of xs r)] :: vss). split.
    - constructor; [|exact H]. constructor. clear. induction xs as [|x xs IH]; constructor; [|exact IH]. destruct (bget x r); reflexivity.
    - cbn [concat map]. now rewrite E.
  Qed.

  (** intents.pl 21-23 *)
  Lemma do_unit n x u qs rs kept : let J := [("Variable", VStr x); ("Unit", VStr u); ("Sem", VList qs)] in
    solve mods (S n) (VList qs) J v = (Ok (SList rs), v) -> first_values [] (values_of x rs) kept ->
    (kept = [] -> solve mods (S (S (S n))) (intent "intent_value_with_unit" [VStr x; VStr u; VList qs]) [] v = (Ok (SList []), v)) /\
    (forall c more, kept = c :: more -> c <> VNone ->
      solve mods (S (S (S n))) (intent "intent_value_with_unit" [VStr x; VStr u; VList qs]) [] v = (Ok (SList [[]]),
        buffered (saying_two "value_with_unit" "output_value_with_unit" "value" "unit" c (VStr u)))).
  Proof.
    intros J Es Hk. destruct (values_collected x rs) as (vss & Hc & Ev). rewrite <- Ev in Hk.
    rewrite <- (buffered_nothing LB v HB Hempty) in Es at 1 2.
    destruct (found_rows (S n) (VStr x) qs "Result" J [] rs vss kept "Variable" "Sem" eq_refl eq_refl eq_refl Es Hc Hk) as (_ & Ef).
    split.
    - intros ->. rewrite <- (buffered_nothing LB v HB Hempty) at 1 2. apply (run_intent_nothing (S (S n)) "intent_value_with_unit" intent_value_with_unit_rule [VStr x; VStr u; VList qs] J [] _
        (VTuple [VStr "find_one"; VVar "Variable"; VVar "Sem"; VVar "Result"])
        [store_of [out "output_type" [VStr "value_with_unit"]; out "output_value_with_unit" [VVar "Result"; VVar "Unit"]]]); try reflexivity; [cbn; auto 10|].
      apply (then_nothing LR tables LB). exact Ef.
    - intros c more -> Hn. rewrite <- (buffered_nothing LB v HB Hempty) at 1.
      apply (run_intent LR tables LB v rules HLR Htb Hrules Hres (S (S n)) "intent_value_with_unit" intent_value_with_unit_rule [VStr x; VStr u; VList qs] J
        (bset "Result" c J) [] _ (VTuple [VStr "find_one"; VVar "Variable"; VVar "Sem"; VVar "Result"])
        [store_of [out "output_type" [VStr "value_with_unit"]; out "output_value_with_unit" [VVar "Result"; VVar "Unit"]]]); try reflexivity.
      + cbn. auto 10.
      + repeat constructor; discriminate.
      + apply (then_solve LR tables LB) with (b1 := bset "Result" c J) (w1 := buffered []); [exact Ef|].
        rewrite (store_two LR tables LB v arity rules HB HLR Htb Hrules Hnames Hgood Hres) with (cols1 := ["type"]) (cols2 := ["value"; "unit"]);
          [destruct c; try reflexivity; congruence|cbn; auto 10|cbn; auto 10].
  Qed.

  (** intents.pl 8-10 *)
  Lemma do_table n xs us qs rs kept : let J := [("Variables", VList (map VStr xs)); ("Units", VList (map VStr us)); ("Body", VList qs)] in
    solve mods (S n) (VList qs) J v = (Ok (SList rs), v) -> first_values [] (map (fun r => VList (row_of xs r)) rs) kept ->
    solve mods (S (S (S n))) (intent "intent_table" [VList (map VStr xs); VList (map VStr us); VList qs]) [] v = (Ok (SList [[]]),
      buffered (saying_two "table" "output_table" "results" "units" (VList kept) (VList (map VStr us)))).
  Proof.
    intros J Es Hk. destruct (rows_collected xs rs) as (vss & Hc & Ev). rewrite <- Ev in Hk.
    rewrite <- (buffered_nothing LB v HB Hempty) in Es at 1 2.
    destruct (found_rows (S n) (VList (map VStr xs)) qs "Results" J [] rs vss kept "Variables" "Body" eq_refl eq_refl eq_refl Es Hc Hk) as (Ef & _).
    rewrite <- (buffered_nothing LB v HB Hempty) at 1.
    apply (run_intent LR tables LB v rules HLR Htb Hrules Hres (S (S n)) "intent_table" intent_table_rule [VList (map VStr xs); VList (map VStr us); VList qs] J
      (bset "Results" (VList kept) J) [] _ (VTuple [VStr "find_all"; VVar "Variables"; VVar "Body"; VVar "Results"])
      [store_of [out "output_type" [VStr "table"]; out "output_table" [VVar "Results"; VVar "Units"]]]); try reflexivity.
    - cbn. auto 10.
    - repeat constructor; discriminate.
    - apply (then_solve LR tables LB) with (b1 := bset "Results" (VList kept) J) (w1 := buffered []); [exact Ef|].
      rewrite (store_two LR tables LB v arity rules HB HLR Htb Hrules Hnames Hgood Hres) with (cols1 := ["type"]) (cols2 := ["results"; "units"]);
        [reflexivity|cbn; auto 10|cbn; auto 10].
  Qed.

  (** intents.pl 4-6 *)
  Lemma do_list_of n x qs rs kept : let J := [("E1", VStr x); ("Sem", VList qs)] in
    solve mods (S n) (VList qs) J v = (Ok (SList rs), v) -> first_values [] (values_of x rs) kept ->
    solve mods (S (S (S n))) (intent "intent_list" [VStr x; VList qs]) [] v = (Ok (SList [[]]),
      buffered (saying "list" "output_list" "elements" (VList kept))).
  Proof.
    intros J Es Hk. destruct (values_collected x rs) as (vss & Hc & Ev). rewrite <- Ev in Hk.
    rewrite <- (buffered_nothing LB v HB Hempty) in Es at 1 2.
    destruct (found_rows (S n) (VStr x) qs "Elements" J [] rs vss kept "E1" "Sem" eq_refl eq_refl eq_refl Es Hc Hk) as (Ef & _).
    rewrite <- (buffered_nothing LB v HB Hempty) at 1.
    apply (run_intent LR tables LB v rules HLR Htb Hrules Hres (S (S n)) "intent_list" intent_list_rule [VStr x; VList qs] J
      (bset "Elements" (VList kept) J) [] _ (VTuple [VStr "find_all"; VVar "E1"; VVar "Sem"; VVar "Elements"])
      [store_of [out "output_type" [VStr "list"]; out "output_list" [VVar "Elements"]]]); try reflexivity.
    - cbn. auto 10.
    - repeat constructor; discriminate.
    - apply (then_solve LR tables LB) with (b1 := bset "Elements" (VList kept) J) (w1 := buffered []); [exact Ef|].
      rewrite (store_two LR tables LB v arity rules HB HLR Htb Hrules Hnames Hgood Hres) with (cols1 := ["type"]) (cols2 := ["elements"]);
        [reflexivity|cbn; auto 10|cbn; auto 10].
  Qed.

  (** intents.pl 25-26 *)
  Lemma do_close n : solve mods (S (S (S n))) (intent "intent_close_conversation" []) [] v = (Ok (SList [[]]), buffered (typed "close_conversation")).
  Proof.
    rewrite <- (buffered_nothing LB v HB Hempty) at 1.
    apply (run_intent LR tables LB v rules HLR Htb Hrules Hres (S (S n)) "intent_close_conversation" intent_close_rule [] [] [] [] _
      (store_of [out "output_type" [VStr "close_conversation"]]) []); try reflexivity.
    - cbn. auto 10.
    - constructor.
    - cbn [intent_close_rule ru_body].
      rewrite (store_one LR tables LB v arity rules HB HLR Htb Hrules Hnames Hgood Hres) with (cols1 := ["type"]) by (cbn; auto). reflexivity.
  Qed.

  (** ** writing *)
  Lemma ask_two n p c1 c2 a1 a2 st : In (p, [c1; c2]) buffer_columns -> c1 <> c2 -> sds_get p st = Some [[(c1, a1); (c2, a2)]] -> a1 <> VNone -> a2 <> VNone ->
    solve mods (S n) (VList [out p [VVar "E1"; VVar "E2"]]) [] (buffered st) = (Ok (SList [[("E1", a1); ("E2", a2)]]), buffered st).
  Proof.
    intros Hp Hc Hg H1 H2. assert (Np : p <> DISJUNCTION) by (intros ->; cbn in Hp; intuition discriminate).
    unfold out. rewrite (single_solve mods n p _ [VVar "E1"; VVar "E2"] [] _
      (find_output LR tables LB v rules HLR Htb Hrules Hres p [c1; c2] _ Hp) Np).
    cbn [memory_relation r_query r_pred r_cols]. unfold memory_query, buffer_select. unfold bind at 1 2 3. cbn [get]. rewrite (buffer_of LB v HB).
    cbn [db_values map db_value c_pred c_cols bget]. unfold sds_select. rewrite Hg.
    cbn [create_dict create_dict_from is_none sds_rows sds_record_ok forallb sds_row bget]. rewrite String.eqb_refl.
    assert (N : String.eqb c2 c1 = false) by (apply String.eqb_neq; congruence). rewrite N, String.eqb_refl. cbn [ret map].
    rewrite finish_row by reflexivity. unfold bind at 1. rewrite match_args_unbound by reflexivity. unfold bind at 1. cbn [subscript nth_error ret bget].
    rewrite match_args_unbound by reflexivity. unfold bind at 1. cbn [subscript nth_error ret bget].
    destruct a1; try congruence; destruct a2; try congruence; reflexivity.
  Qed.

  Variable format_table : list value -> M V value.
  Notation grammar := (grammar_rules (write_rules format_table)).
  Notation reads n st := (generate_output grammar (solve mods (S n)) LB (S n) (buffered st)).

  Lemma pick_two n rule rs t p c1 c2 a1 a2 : w_if (g_mean rule) = VList [out "output_type" [VStr t]; out p [VVar "E1"; VVar "E2"]] ->
    In (p, [c1; c2]) buffer_columns -> c1 <> c2 -> p <> "output_type" -> a1 <> VNone -> a2 <> VNone ->
    find_rule_loop (solve mods (S n)) [] [] (rule :: rs) None [] false (buffered (saying_two t p c1 c2 a1 a2)) =
    (Ok (Some rule, [("E1", a1); ("E2", a2)], true), buffered (saying_two t p c1 c2 a1 a2)).
  Proof.
    intros Ec Hp Hc Np H1 H2. cbn [find_rule_loop]. unfold bind at 1. rewrite Ec. cbn [no_condition].
    assert (Ei : init_binding (k_args (g_ante rule)) [] [] = []) by now destruct (k_args (g_ante rule)). rewrite Ei.
    unfold bind at 1. unfold saying_two at 1.
    rewrite (then_solve LR tables LB (S n) _ _ [] [] [("E1", a1); ("E2", a2)] _ (buffered (saying_two t p c1 c2 a1 a2)) (buffered (saying_two t p c1 c2 a1 a2))).
    - reflexivity.
    - rewrite (ask_type LR tables LB v rules HB HLR Htb Hrules Hres), String.eqb_refl. reflexivity.
    - apply ask_two with (c1 := c1) (c2 := c2); auto. unfold saying_two, typed. cbn [app sds_get]. apply String.eqb_neq in Np. rewrite Np. now rewrite String.eqb_refl.
  Qed.

  Ltac skip_one := erewrite (skip_rule LR tables LB v rules HB HLR Htb Hrules Hres); [|reflexivity| |reflexivity]; [|discriminate].

  Lemma read_fixed n t s : In (t, s) [("ok", "OK"); ("close_conversation", "Cheerio.")] -> reads n (typed t) = (Ok (VStr s), v).
  Proof.
    intros H. unfold generate_output. cbn [generate_node]. unfold generate_node_F, find_rule. cbn [length]. unfold bind at 1 2 3.
    rewrite (the_rules format_table). unfold write_rules. change (typed t) with (typed t ++ []).
    cbn [In] in H. destruct H as [[= <- <-]|[[= <- <-]|[]]]; [do 3 skip_one|do 10 skip_one];
      rewrite (pick_type LR tables LB v rules HB HLR Htb Hrules Hres) by reflexivity; cbn; unfold bind, buffer_clear; cbn; now rewrite (buffer_cleared LB v HB Hempty).
  Qed.
  Lemma read_unit n c u : c <> VNone ->
    reads n (saying_two "value_with_unit" "output_value_with_unit" "value" "unit" c (VStr u)) = (Ok (VStr (append (py_str c) (append " " u))), v).
  Proof.
    intros Hc. unfold generate_output. cbn [generate_node]. unfold generate_node_F, find_rule. cbn [length]. unfold bind at 1 2 3.
    rewrite (the_rules format_table). unfold write_rules. do 7 skip_one.
    erewrite pick_two; [|reflexivity|cbn; auto 10|discriminate|discriminate|assumption|discriminate].
    cbn -[append py_str]. unfold bind, buffer_clear. cbn -[append py_str]. rewrite (buffer_cleared LB v HB Hempty). reflexivity.
  Qed.
  Lemma read_bad_list n l : all_text l = None ->
    reads n (saying "list" "output_list" "elements" (VList l)) = (Exn TypeErr, buffered (saying "list" "output_list" "elements" (VList l))).
  Proof.
    intros A. unfold generate_output. cbn [generate_node]. unfold generate_node_F, find_rule. cbn [length]. unfold bind at 1 2 3.
    rewrite (the_rules format_table). unfold write_rules. do 8 skip_one.
    erewrite (pick_arg LR tables LB v rules HB HLR Htb Hrules Hres); [|reflexivity|cbn; auto 10|discriminate|discriminate].
    cbn. unfold bind. cbn. rewrite A. reflexivity.
  Qed.
  Lemma read_table n a us : a <> VNone -> us <> VNone ->
    reads n (saying_two "table" "output_table" "results" "units" a us) =
    match format_table [a; us] (buffered (saying_two "table" "output_table" "results" "units" a us)) with
    | (Ok r, w) => (Ok r, lset LB [] w)
    | (Exn e, w) => (Exn e, w)
    | (OutOfFuel, w) => (OutOfFuel, w)
    end.
  Proof.
    intros Ha Hu. unfold generate_output. cbn [generate_node]. unfold generate_node_F, find_rule. cbn [length]. unfold bind at 1 2 3.
    rewrite (the_rules format_table). unfold write_rules. do 9 skip_one.
    erewrite pick_two; [|reflexivity|cbn; auto 10|discriminate|discriminate|assumption|assumption].
    cbn. unfold bind, buffer_clear. cbn. destruct (format_table [a; us] _) as [[r|e|] w]; try reflexivity.
    unfold combine_words. cbn. destruct r; reflexivity.
  Qed.
End Replies.
