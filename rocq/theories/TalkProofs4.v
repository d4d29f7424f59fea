(** * Sentences: the intents and their replies *)

From Coq Require Import ZArith String Ascii List Bool Lia Arith Sorted.
From Verif Require Import Py PyFacts Effects EffectsFacts Atoms Solver SolverSpec SolverProofs CoreModule CoreSpec CoreProofs CoreProofs2 CoreProofs3
  InferenceModule TableModule SimpleDataSource Memory MemoryProofs Grammar Generator
  DatalogSpec DatalogProofs FolSpec FolProofs FolProofs2 FolProofs3 FolProofs4 PropFol PropSystem2
  QuestionSystem FragmentSpec FragmentModel TalkSpec TalkModel TalkProofs3.
Import ListNotations.
Local Open Scope nat_scope.
Local Open Scope string_scope.
Local Open Scope list_scope.

(** the output buffer *)
Definition typed (t : string) : sds_store := [("output_type", [[("type", VStr t)]])].
Definition saying (t p c : string) (a : value) : sds_store := typed t ++ [(p, [[(c, a)]])].

(** the values of a variable *)
Definition values_of (x : string) (l : list binding) : list value :=
  flat_map (fun r => match bget x r with Some c => [c] | None => [] end) l.

Section Intents.
  Context {V : Type}.
  Variable LR : lens V rulebase.
  Variable tables : V -> string -> option (list (list value)).
  Variable LB : lens V sds_store.
  Variable v : V.
  Variable arity : string -> nat.
  Variable rules : list folrule.
  Hypothesis HB : lens_ok LB.
  Hypothesis HLR : forall s w, lget LR (lset LB s w) = lget LR w.
  Hypothesis Htb : forall s w p, tables (lset LB s w) p = tables w p.
  Hypothesis Hrules : lget LR v = stored_rules rules ++ intent_rules.
  Hypothesis Hempty : lget LB v = [].
  Hypothesis Htab : good_tables tables arity v.
  Hypothesis Hnames : forall p, tables v p <> None -> user_pred p.
  Hypothesis Hgood : forall r, In r rules -> good_rule (flat_atom arity) r.
  Hypothesis Hres : forall p, has_relation tables rules v p -> ~ In p reserved.
  Variable rank : string -> nat.
  Variable sig : string -> list sort.
  Hypothesis Hrank : hierarchical rank rules.
  Hypothesis Hkn : forall r p, In r rules -> In p (preds (rl_body r)) -> has_relation tables rules v p.
  Hypothesis Hdb : forall p t, In t (db_of tables v p) -> Forall2 of_sort (sig p) t.
  Hypothesis Hsr : forall r, In r rules -> sorted_rule sig r.
  Variable ext : string -> list value -> Prop.
  Hypothesis Hext : completed (db_of tables v) rules ext.

  Notation mods := (talk_mods LR tables LB).
  Notation buffered := (buffered LB v).

  Lemma buffered_nothing : buffered [] = v.
  Proof. unfold TalkProofs3.buffered. rewrite <- Hempty. apply (lens_set_get LB HB). Qed.

  (** intents.pl 4-6 *)
  Lemma do_list x q : answerable_query tables arity rules v sig q ->
    ~ In x ["E1"; "Sem"] -> (forall y, In y (vars q) -> ~ In y ["E1"; "Sem"]) ->
    exists n0, forall n, n0 <= n -> exists l kept, exact ext q [] l /\ first_values [] (values_of x l) kept /\
      solve mods n (intent "intent_list" [VStr x; query_of q]) [] v = (Ok (SList [[]]), buffered (saying "list" "output_list" "elements" (VList kept))).
  Proof.
    intros Hq Hx Hv. set (J := [("E1", VStr x); ("Sem", query_of q)]).
    assert (HJ : forall y, ~ In y ["E1"; "Sem"] -> bget y J = None).
    { intros y Hy. cbn in Hy |- *. destruct (String.eqb_spec y "E1"); [exfalso; auto|]. destruct (String.eqb_spec y "Sem"); [exfalso; auto|reflexivity]. }
    destruct (inner_query LR tables LB v arity rules HLR Htb Hrules Htab Hnames Hgood Hres rank sig Hrank Hkn Hdb Hsr ext Hext q J [] Hq) as (n0 & Hn0); [auto|].
    exists (S (S (S n0))). intros n Hn. destruct n as [|[|[|n]]]; try lia.
    destruct (Hn0 (S n)) as (l & El & Ex); [lia|].
    destruct (found LR tables LB v arity rules HLR Htb Hrules Hnames Hgood (S n) x (map fol_value q) "Elements" J [] l) as (kept & Hk & Hf); auto.
    exists l, kept. split; [exact Ex|]. split; [exact Hk|]. destruct (Hf "E1" "Sem" eq_refl eq_refl) as (Ea & _).
    rewrite <- buffered_nothing at 1.
    apply (run_intent LR tables LB v rules HLR Htb Hrules Hres (S (S n)) "intent_list" intent_list_rule [VStr x; query_of q] J
      (bset "Elements" (VList kept) J) [] _ _ _ (or_introl eq_refl) eq_refl eq_refl eq_refl).
    - repeat constructor; discriminate.
    - apply (then_solve LR tables LB) with (b1 := bset "Elements" (VList kept) J) (w1 := buffered []); [exact Ea|].
      rewrite (store_two LR tables LB v arity rules HB HLR Htb Hrules Hnames Hgood Hres) with (cols1 := ["type"]) (cols2 := ["elements"]); [reflexivity|cbn; auto 10|cbn; auto 10].
  Qed.

  (** intents.pl 17-19 *)
  Lemma do_value x q : answerable_query tables arity rules v sig q ->
    ~ In x ["Variable"; "Sem"] -> (forall y, In y (vars q) -> ~ In y ["Variable"; "Sem"]) ->
    exists n0, forall n, n0 <= n -> exists l kept, exact ext q [] l /\ first_values [] (values_of x l) kept /\
      forall c more, kept = c :: more -> c <> VNone ->
      solve mods n (intent "intent_value" [VStr x; query_of q]) [] v = (Ok (SList [[]]), buffered (saying "value" "output_value" "value" c)).
  Proof.
    intros Hq Hx Hv. set (J := [("Variable", VStr x); ("Sem", query_of q)]).
    assert (HJ : forall y, ~ In y ["Variable"; "Sem"] -> bget y J = None).
    { intros y Hy. cbn in Hy |- *. destruct (String.eqb_spec y "Variable"); [exfalso; auto|]. destruct (String.eqb_spec y "Sem"); [exfalso; auto|reflexivity]. }
    destruct (inner_query LR tables LB v arity rules HLR Htb Hrules Htab Hnames Hgood Hres rank sig Hrank Hkn Hdb Hsr ext Hext q J [] Hq) as (n0 & Hn0); [auto|].
    exists (S (S (S n0))). intros n Hn. destruct n as [|[|[|n]]]; try lia.
    destruct (Hn0 (S n)) as (l & El & Ex); [lia|].
    destruct (found LR tables LB v arity rules HLR Htb Hrules Hnames Hgood (S n) x (map fol_value q) "Result" J [] l) as (kept & Hk & Hf); auto.
    exists l, kept. split; [exact Ex|]. split; [exact Hk|]. intros c more Ek Nc. destruct (Hf "Variable" "Sem" eq_refl eq_refl) as (_ & Ea). specialize (Ea c more Ek).
    rewrite <- buffered_nothing at 1.
    apply (run_intent LR tables LB v rules HLR Htb Hrules Hres (S (S n)) "intent_value" intent_value_rule [VStr x; query_of q] J
      (bset "Result" c J) [] _ (VTuple [VStr "find_one"; VVar "Variable"; VVar "Sem"; VVar "Result"])
      [store_of [out "output_type" [VStr "value"]; out "output_value" [VVar "Result"]]]); try reflexivity.
    - cbn. auto 10.
    - repeat constructor; discriminate.
    - apply (then_solve LR tables LB) with (b1 := bset "Result" c J) (w1 := buffered []); [exact Ea|].
      rewrite (store_two LR tables LB v arity rules HB HLR Htb Hrules Hnames Hgood Hres) with (cols1 := ["type"]) (cols2 := ["value"]);
        [destruct c; try reflexivity; congruence|cbn; auto 10|cbn; auto 10].
  Qed.

  (** intents.pl 12-15 *)
  Lemma do_yn q : answerable_query tables arity rules v sig q -> (forall y, In y (vars q) -> y <> "Body") ->
    exists n0, forall n, n0 <= n -> exists l, exact ext q [] l /\
      solve mods n (intent "intent_yn" [query_of q]) [] v = (Ok (SList [[]]), buffered (typed (match l with [] => "no" | _ => "yes" end))).
  Proof.
    intros Hq Hv. set (J := [("Body", query_of q)]).
    assert (HJ : forall y, y <> "Body" -> bget y J = None) by (intros y Hy; cbn; destruct (String.eqb_spec y "Body"); [contradiction|reflexivity]).
    destruct (inner_query LR tables LB v arity rules HLR Htb Hrules Htab Hnames Hgood Hres rank sig Hrank Hkn Hdb Hsr ext Hext q J [] Hq) as (n0 & Hn0); [auto|].
    exists (S (S (S (S n0)))). intros n Hn. destruct n as [|[|[|[|n]]]]; try lia.
    destruct (Hn0 (S n)) as (l & El & Ex); [lia|]. exists l. split; [exact Ex|]. rewrite <- buffered_nothing at 1.
    eapply (run_intent LR tables LB v rules HLR Htb Hrules Hres (S (S (S n))) "intent_yn" intent_yn_rule [query_of q] J J []); try reflexivity.
    - cbn. auto 10.
    - repeat constructor; discriminate.
    - assert (Es : solve mods (S (S n)) (VList [VTuple [VStr "scoped"; VVar "Body"]]) J (buffered []) =
          (Ok (SList (match l with [] => [] | _ => [J] end)), buffered [])).
      { rewrite (core_solve mods (S n) "scoped" q_scoped _ J (buffered []));
          [|apply (core_alone LR tables LB v arity rules HLR Htb Hrules Hnames Hgood); left; cbn; auto 10|reflexivity|discriminate].
        unfold q_scoped, item. unfold bind at 1 2 3. cbn [db_values map db_value nth_error ret c_binding bget J]. rewrite !String.eqb_refl.
        fold J. unfold solve in El. rewrite El. destruct l; reflexivity. }
      assert (Ed : forall ds, solve mods (S (S (S n))) (VList [VTuple [VStr DISJUNCTION; VList ds]]) J (buffered []) =
          solve_disjuncts (solver_at mods (S (S n))) ds J (buffered [])) by reflexivity.
      cbn [intent_yn_rule ru_body]. rewrite Ed. cbn [solve_disjuncts].
      pose proof (fun e => store_one LR tables LB v arity rules HB HLR Htb Hrules Hnames Hgood Hres n "output_type" ["type"] [VStr e] J [] (or_introl eq_refl)) as So.
      destruct l as [|r l].
      + unfold bind at 1. pose proof (then_nothing LR tables LB _ _ (store_of [out "output_type" [VStr "yes"]]) _ _ _ Es) as E1. unfold solve in E1. rewrite E1.
        cbn [sres_len length]. unfold bind at 1. pose proof (So "no") as E2. unfold solve in E2. rewrite E2. reflexivity.
      + unfold bind at 1. pose proof (then_solve LR tables LB _ _ _ _ _ _ _ _ _ Es (So "yes")) as E1. unfold solve in E1. rewrite E1. reflexivity.
  Qed.

  (** ** reading *)
  Lemma ask_type n e b t rest :
    solve mods (S n) (VList [out "output_type" [VStr e]]) b (buffered (typed t ++ rest)) =
    (Ok (SList (if String.eqb t e then [b] else [])), buffered (typed t ++ rest)).
  Proof.
    unfold out. rewrite (single_solve mods n "output_type" _ [VStr e] b _
      (find_output LR tables LB v rules HLR Htb Hrules Hres "output_type" ["type"] _ (or_introl eq_refl))) by discriminate.
    cbn [memory_relation r_query r_pred r_cols]. unfold memory_query, buffer_select. unfold bind at 1 2 3. cbn [get]. rewrite (buffer_of LB v HB).
    cbn [db_values map db_value c_pred c_cols]. unfold sds_select. cbn [typed app sds_get].
    change (String.eqb "output_type" "output_type") with true. cbn [create_dict create_dict_from is_none bset sds_rows sds_record_ok forallb fst snd bget].
    change (String.eqb "type" "type") with true. cbn [py_eq]. destruct (String.eqb t e) eqn:E; [|reflexivity].
    apply String.eqb_eq in E as ->. cbn [andb sds_row bget]. change (String.eqb "type" "type") with true. cbn.
    unfold create_results, bind. cbn. now rewrite String.eqb_refl.
  Qed.
  Lemma ask_arg n p c a st : In (p, [c]) buffer_columns -> sds_get p st = Some [[(c, a)]] -> a <> VNone ->
    solve mods (S n) (VList [out p [VVar "E1"]]) [] (buffered st) = (Ok (SList [[("E1", a)]]), buffered st).
  Proof.
    intros Hp Hg Ha. assert (Np : p <> DISJUNCTION) by (intros ->; cbn in Hp; intuition discriminate).
    unfold out. rewrite (single_solve mods n p _ [VVar "E1"] [] _
      (find_output LR tables LB v rules HLR Htb Hrules Hres p [c] _ Hp) Np).
    cbn [memory_relation r_query r_pred r_cols]. unfold memory_query, buffer_select. unfold bind at 1 2 3. cbn [get]. rewrite (buffer_of LB v HB).
    cbn [db_values map db_value c_pred c_cols bget]. unfold sds_select. rewrite Hg.
    cbn [create_dict create_dict_from is_none sds_rows sds_record_ok forallb sds_row bget]. rewrite String.eqb_refl. cbn [ret map].
    rewrite finish_row by reflexivity. unfold bind at 1. rewrite match_args_unbound by reflexivity. unfold bind at 1. cbn [subscript nth_error ret bget].
    destruct a; congruence || reflexivity.
  Qed.

  Variable format_table : list value -> M V value.
  Notation grammar := (grammar_rules (write_rules format_table)).
  Notation reads n st := (generate_output grammar (solve mods (S n)) LB (S n) (buffered st)).

  Lemma skip_rule n e cond rest rule rs t st used : w_if (g_mean rule) = VList (out "output_type" [VStr e] :: cond) ->
    t <> e -> st = typed t ++ rest ->
    find_rule_loop (solve mods (S n)) used [] (rule :: rs) None [] false (buffered st) =
    find_rule_loop (solve mods (S n)) used [] rs None [] false (buffered st).
  Proof.
    intros Ec Ne ->. cbn [find_rule_loop]. unfold bind at 1. rewrite Ec. cbn [no_condition].
    assert (Ei : init_binding (k_args (g_ante rule)) [] [] = []) by now destruct (k_args (g_ante rule)). rewrite Ei.
    assert (Es : solve mods (S n) (VList (out "output_type" [VStr e] :: cond)) [] (buffered (typed t ++ rest)) = (Ok (SList []), buffered (typed t ++ rest))).
    { pose proof (ask_type n e [] t rest) as E. apply String.eqb_neq in Ne. rewrite Ne in E. destruct cond as [|a cond]; [exact E|].
      unfold solve in *. cbn [solver_at sv_solve] in *. unfold solve_F in *. cbn [solve_atoms] in *. unfold bind at 1. rewrite E. reflexivity. }
    unfold bind at 1. rewrite Es. reflexivity.
  Qed.
  Lemma pick_type n rule rs t rest : w_if (g_mean rule) = VList [out "output_type" [VStr t]] ->
    find_rule_loop (solve mods (S n)) [] [] (rule :: rs) None [] false (buffered (typed t ++ rest)) =
    (Ok (Some rule, [], true), buffered (typed t ++ rest)).
  Proof.
    intros Ec. cbn [find_rule_loop]. unfold bind at 1. rewrite Ec. cbn [no_condition].
    assert (Ei : init_binding (k_args (g_ante rule)) [] [] = []) by now destruct (k_args (g_ante rule)). rewrite Ei.
    unfold bind at 1. rewrite ask_type, String.eqb_refl. reflexivity.
  Qed.
  Lemma pick_arg n rule rs t p c a : w_if (g_mean rule) = VList [out "output_type" [VStr t]; out p [VVar "E1"]] ->
    In (p, [c]) buffer_columns -> p <> "output_type" -> a <> VNone ->
    find_rule_loop (solve mods (S n)) [] [] (rule :: rs) None [] false (buffered (saying t p c a)) =
    (Ok (Some rule, [("E1", a)], true), buffered (saying t p c a)).
  Proof.
    intros Ec Hp Np Ha. cbn [find_rule_loop]. unfold bind at 1. rewrite Ec. cbn [no_condition].
    assert (Ei : init_binding (k_args (g_ante rule)) [] [] = []) by now destruct (k_args (g_ante rule)). rewrite Ei.
    unfold bind at 1. unfold saying at 1.
    rewrite (then_solve LR tables LB (S n) _ _ [] [] [("E1", a)] _ (buffered (saying t p c a)) (buffered (saying t p c a))).
    - reflexivity.
    - rewrite ask_type, String.eqb_refl. reflexivity.
    - apply ask_arg with (c := c); auto. unfold saying, typed. cbn [app sds_get]. apply String.eqb_neq in Np. rewrite Np. now rewrite String.eqb_refl.
  Qed.
  Lemma the_rules : find_rules grammar "s" 0 = write_rules format_table.
  Proof. reflexivity. Qed.
  Lemma buffer_cleared st : lset LB [] (buffered st) = v.
  Proof. unfold TalkProofs3.buffered. rewrite (lens_set_set LB HB). apply buffered_nothing. Qed.

  Ltac skip_one := erewrite skip_rule; [|reflexivity| |reflexivity]; [|discriminate].

  Lemma read_type n t s : In (t, s) [("not_understood", "Sorry, I don't understand"); ("no_sentence", "No sentence given"); ("yes", "yes"); ("no", "no")] ->
    reads n (typed t) = (Ok (VStr s), v).
  Proof.
    intros H. unfold generate_output. cbn [generate_node]. unfold generate_node_F, find_rule. cbn [length]. unfold bind at 1 2 3. rewrite the_rules. unfold write_rules.
    change (typed t) with (typed t ++ []). 
    cbn [In] in H. destruct H as [[= <- <-]|[[= <- <-]|[[= <- <-]|[[= <- <-]|[]]]]];
      [idtac|do 1 skip_one
      |do 4 skip_one|do 5 skip_one];
      rewrite pick_type by reflexivity; cbn; unfold bind, buffer_clear; cbn; now rewrite buffer_cleared.
  Qed.
  Lemma read_word n u : reads n (saying "unknown_word" "output_unknown_word" "word" (VStr u)) = (Ok (VStr ("Could not understand: " ++ u)), v).
  Proof.
    unfold generate_output. cbn [generate_node]. unfold generate_node_F, find_rule. cbn [length]. unfold bind at 1 2 3. rewrite the_rules. unfold write_rules.
    do 2 skip_one.
    erewrite pick_arg; [|reflexivity|cbn; auto 10|discriminate|discriminate].
    cbn -[append]. unfold bind, buffer_clear. cbn -[append]. rewrite buffer_cleared. reflexivity.
  Qed.
  Lemma read_value n c : c <> VNone -> reads n (saying "value" "output_value" "value" c) = (Ok c, v).
  Proof.
    intros Hn. unfold generate_output. cbn [generate_node]. unfold generate_node_F, find_rule. cbn [length]. unfold bind at 1 2 3. rewrite the_rules. unfold write_rules.
    do 6 skip_one.
    erewrite pick_arg; [|reflexivity|cbn; auto 10|discriminate|assumption].
    cbn. unfold bind, buffer_clear. cbn. rewrite buffer_cleared. unfold combine_words. cbn. now destruct c.
  Qed.
  Lemma concat_one s : String.concat "" [s] = s.
  Proof. reflexivity. Qed.
  Lemma read_list n ss : reads n (saying "list" "output_list" "elements" (VList (map VStr ss))) = (Ok (VStr (String.concat ", " (sort_texts ss))), v).
  Proof.
    assert (A : all_text (map VStr ss) = Some ss) by (induction ss as [|s ss IH]; [reflexivity|]; cbn; now rewrite IH).
    unfold generate_output. cbn [generate_node]. unfold generate_node_F, find_rule. cbn [length]. unfold bind at 1 2 3. rewrite the_rules. unfold write_rules.
    do 8 skip_one.
    erewrite pick_arg; [|reflexivity|cbn; auto 10|discriminate|discriminate].
    cbn -[String.concat]. unfold bind, buffer_clear. cbn -[String.concat]. rewrite A. cbn -[String.concat]. rewrite buffer_cleared. reflexivity.
  Qed.
End Intents.

(** ** alphabetical lists *)
Lemma insert_text_in s l x : In x (insert_text s l) <-> x = s \/ In x l.
Proof.
  induction l as [|t l IH]; cbn; [intuition|]. destruct (str_lt t s); cbn; [rewrite IH|]; intuition.
Qed.
Lemma sort_texts_in l x : In x (sort_texts l) <-> In x l.
Proof. induction l as [|s l IH]; cbn; [reflexivity|]. rewrite insert_text_in, IH. intuition. Qed.

Lemma sort_texts_sorted l : NoDup l -> StronglySorted comes_before (sort_texts l).
Proof.
  induction 1 as [|s l Hs Hn IH]; [constructor|]. change (sort_texts (s :: l)) with (insert_text s (sort_texts l)).
  assert (Hi : ~ In s (sort_texts l)) by (rewrite sort_texts_in; exact Hs). revert IH Hi. clear. generalize (sort_texts l) as us.
  intros us. induction 1 as [|t ts St IH Ft]; intros Hi; [repeat constructor|]. cbn. cbn in Hi. destruct (str_lt t s) eqn:E.
  - constructor; [apply IH; tauto|]. apply Forall_forall. intros x Hx. apply insert_text_in in Hx as [->|Hx]; [now apply str_lt_compare|].
    rewrite Forall_forall in Ft. now apply Ft.
  - assert (Lt : str_lt s t = true) by (destruct (str_lt_cases t s) as [(A & _)|[(_ & A & _)|(_ & _ & A)]]; [congruence|exact A|subst; exfalso; auto]).
    constructor; [constructor; auto|]. constructor; [now apply str_lt_compare|]. apply Forall_forall. intros x Hx. rewrite Forall_forall in Ft.
    apply str_lt_compare. eapply str_lt_trans; [exact Lt|]. apply str_lt_compare. now apply Ft.
Qed.
