(** * Lessons for the Cooper system *)

From Coq Require Import ZArith String Ascii List Bool Arith Lia.
From Verif Require Import Py PyFacts ReprProofs Effects EffectsFacts Solver Atoms Grammar Earley CoreModule CoreProofs InferenceModule Sql SqliteDataSource DataSpec SqliteProofs SqliteProofs2
  SimpleDataSource Memory MemoryProofs Generator Pipeline FragmentModel TalkModel SirModel SirProofs4 SirProofs5 CooperModel CooperSpec CooperProofs CooperProofs2 CooperProofs3.
Import ListNotations.
Local Open Scope nat_scope.
Local Open Scope string_scope.
Local Open Scope list_scope.

Lemma seq_exact {W} (mods : list (modul W)) n a rest b b1 b2 (w w1 w2 : W) : rest <> [] -> solve mods n (VList [a]) b w = (Ok (SList [b1]), w1) ->
  solve mods n (VList rest) b1 w1 = (Ok (SList [b2]), w2) -> solve mods n (VList (a :: rest)) b w = (Ok (SList [b2]), w2).
Proof.
  intros Hr E1 E2. destruct n as [|n]; [discriminate|]. rewrite seq_unfold by assumption. unfold bind at 1. rewrite E1. unfold bind at 1. cbn [sres_items ret foldM].
  unfold bind at 1 2 3. rewrite E2. reflexivity.
Qed.

(** ** what is told *)
Section Tell.
  Variables (w : cooper) (names aliases : list (string * string)) (facts : string -> list (string * bool)) (rules : list taught).
  Hypothesis C : classroom w names aliases facts rules.

  Lemma insert_known q e v : In q qualities -> exists w1, co_insert q ["entity"; "truth"] [VStr e; VStr (truth_text v)] w = (Ok tt, w1) /\
    classroom w1 names aliases (tell e q v facts) rules /\ co_out w1 = co_out w.
  Proof.
    intros Hq. pose proof (kn_facts _ _ _ (cl_knows _ _ _ _ _ C) q Hq) as Ht.
    assert (Ec : conflicts (mkTbl ["entity"; "truth"] [["entity"]] (map fact_row (facts q))) [VStr e; VStr (truth_text v)] = existsb (fun f => String.eqb (fst f) e) (facts q)).
    { unfold conflicts. cbn [t_unique t_rows t_cols existsb]. rewrite orb_false_r. clear Ht. induction (facts q) as [|f fs IH]; [reflexivity|]. cbn [map existsb]. f_equal; [|exact IH].
      cbn [forallb]. rewrite andb_true_r. reflexivity. }
    eexists. split; [|split].
    - unfold co_insert. apply on_conn_run. change (lget co_db_lens w) with (co_db w). unfold sq_insert, run_sql, execute, bind.
      rewrite parse_insert; [|now apply quality_sql|intros c [<-|[<-|[]]]; reflexivity|discriminate|discriminate]. rewrite storable_values by reflexivity. cbn [run_stmt]. rewrite Ht.
      cbn [t_cols has_col forallb existsb length]. cbn [String.eqb Ascii.eqb Bool.eqb andb orb Nat.eqb].
      change (map (cell ["entity"; "truth"] [VStr e; VStr (truth_text v)]) ["entity"; "truth"]) with [VStr e; VStr (truth_text v)]. rewrite Ec.
      set (d1 := db_put q (mkTbl ["entity"; "truth"] [["entity"]] (map fact_row (facts q) ++ [[VStr e; VStr (truth_text v)]])) (current (co_db w))).
      assert (Er : forall x : bool, (if x then (Ok (@nil (list value)), current (co_db w)) else (Ok [], d1)) = (Ok [], if x then current (co_db w) else d1)) by now destruct x.
      rewrite Er. reflexivity.
    - cbn [lset co_db_lens]. destruct C as [[K1 K2 K3 K4] H1 H2 H3 H4]. constructor; [constructor|..]; cbn [co_db co_rb current]; try assumption.
      + intros q' Hq'. unfold tell. destruct (existsb (fun f => String.eqb (fst f) e) (facts q)) eqn:Ex.
        * rewrite K1 by exact Hq'. now destruct (String.eqb_spec q' q) as [->|N].
        * rewrite db_get_put, K1 by exact Hq'. destruct (String.eqb_spec q' q) as [->|N]; [|reflexivity]. cbn [t_cols t_unique t_rows]. rewrite map_app. reflexivity.
      + destruct (existsb (fun f => String.eqb (fst f) e) (facts q)); [exact H1|]. rewrite db_get_put, H1.
        destruct (String.eqb_spec "entity" q) as [<-|N]; [|reflexivity]. exfalso. unfold qualities in Hq. repeat (destruct Hq as [Hq|Hq]; [discriminate|]). destruct Hq.
    - reflexivity.
  Qed.

  Lemma write_known n q e v : In q qualities -> exists w1, sv_write (solver_at cooper_mods (S n)) (VTuple [VStr q; VStr e; VStr (truth_text v)]) w = (Ok tt, w1) /\
    classroom w1 names aliases (tell e q v facts) rules /\ co_out w1 = co_out w.
  Proof.
    intros Hq. destruct (insert_known q e v Hq) as (w1 & E & H). exists w1. split; [|exact H].
    cbn [solver_at sv_write]. unfold write_F. unfold bind at 1. cbn [atom_parts ret]. unfold bind at 1. cbn [get]. rewrite quality_known by exact Hq.
    cbn [write_rels quality_relation r_write r_pred r_cols]. unfold quality_write at 1. cbn [c_pred c_cols]. unfold bind at 1. rewrite E.
    destruct (rules_get q (co_rb w)); reflexivity.
  Qed.
End Tell.

(** ** sentences that teach *)
Definition lesson (p : string) (args : list value) : value := VTuple (VStr p :: args).
Definition tell_rule : rule := mkRule [VStr "sentence_tell"; VVar "Atoms"]
  (VList [VTuple [VStr "store"; VVar "Atoms"]; VTuple [VStr "store"; VList [VTuple [VStr "output_type"; VStr "ok"]]]]).
Definition learn_rule_ : rule := mkRule [VStr "sentence_learn"; VVar "Head"; VVar "Body"]
  (VList [VTuple [VStr "learn_rule"; VVar "Head"; VVar "Body"]; VTuple [VStr "store"; VList [VTuple [VStr "output_type"; VStr "ok"]]]]).
Lemma cooper_rules_are : cooper_rules = [("sentence_tell", [tell_rule]); ("sentence_learn", [learn_rule_]);
  ("sentence_check", [mkRule [VStr "sentence_check"; VVar "Truth"] (VList [VTuple [VStr "store"; VList [VTuple [VStr "output_type"; VVar "Truth"]]]])])].
Proof. reflexivity. Qed.

(** what a binding gives, but for the variables of the rule *)
Lemma bget_filter vars b x : bget x (filter (fun kv : string * value => negb (existsb (String.eqb (fst kv)) vars)) b) = if existsb (String.eqb x) vars then None else bget x b.
Proof.
  induction b as [|(k & v) b IH]; [cbn; now destruct (existsb _ _)|]. cbn [filter fst]. destruct (existsb (String.eqb k) vars) eqn:E; cbn [negb bget].
  - rewrite IH. destruct (String.eqb_spec x k) as [->|N]; [now rewrite E|reflexivity].
  - destruct (String.eqb_spec x k) as [->|N]; [now rewrite E|exact IH].
Qed.

Section Lessons.
  Variables (w : cooper) (names aliases : list (string * string)) (facts : string -> list (string * bool)) (rules : list taught).
  Hypothesis C : classroom w names aliases facts rules.
  Hypothesis Ho : co_out w = [].

  Lemma sentence_known p : In p ["sentence_tell"; "sentence_learn"; "sentence_check"] -> find_relations cooper_mods w p = [mkRel p [] (handle_rule co_rb_lens) None].
  Proof.
    intros H. pose proof (cl_sentences _ _ _ _ _ C p H) as Hs. unfold find_relations, cooper_mods. cbn [find_relations_in]. unfold inference_module.
    change (lget co_rb_lens w) with (co_rb w). rewrite Hs. repeat (destruct H as [<-|H]; [reflexivity|]). destruct H.
  Qed.
  (** a sentence whose rule gives one solution *)
  Lemma sentence_run n p r args b w1 : In p ["sentence_tell"; "sentence_learn"; "sentence_check"] -> rules_get p cooper_rules = Some [r] ->
    (forall a, In a args -> forall x, a <> VVar x) -> args <> [] ->
    solve_rule (solver_at cooper_mods n) r args b w = (Ok [args], w1) ->
    solve cooper_mods (S n) (VList [VTuple (VStr p :: args)]) b w = (Ok (SList [b]), w1).
  Proof.
    intros Hp Hr Ha Hn E. rewrite (single_solve cooper_mods n p _ args b w (sentence_known p Hp)).
    2:{ intros ->. repeat (destruct Hp as [Hp|Hp]; [discriminate|]). destruct Hp. }
    cbn [r_query r_pred r_cols]. unfold handle_rule. unfold bind at 1 2. cbn [get c_pred c_args c_binding]. change (lget co_rb_lens w) with (co_rb w).
    rewrite (cl_sentences _ _ _ _ _ C p Hp), Hr. cbn [foldM]. unfold bind at 1 2 3. rewrite E. cbn [ret app map]. rewrite finish_row by reflexivity.
    assert (M : forall l pre, (forall a, In a l -> forall x, a <> VVar x) -> match_args (W := cooper) (VList (pre ++ l)) b (length pre) l b false w1 = (Ok (b, false), w1)).
    { induction l as [|a l IH]; intros pre Hl; [reflexivity|]. cbn [match_args].
      assert (Es : subscript (W := cooper) (VList (pre ++ a :: l)) (length pre) w1 = (Ok a, w1)).
      { cbn [subscript]. rewrite nth_error_app2, Nat.sub_diag by lia. reflexivity. }
      specialize (IH (pre ++ [a]) (fun a' Ha' => Hl a' (or_intror Ha'))). rewrite <- app_assoc, app_length in IH. cbn [length app] in IH. rewrite Nat.add_1_r in IH.
      pose proof (Hl a (or_introl eq_refl)) as Na.
      destruct a; try (exfalso; exact (Na _ eq_refl)); unfold bind; rewrite Es, py_eq_refl, andb_false_r; exact IH. }
    specialize (M args [] Ha). cbn [app length] in M. unfold bind. rewrite M. reflexivity.
  Qed.

  Definition ok_said : sds_store := said ["ok"].
  Definition ok_atom : value := VTuple [VStr "store"; VList [VTuple [VStr "output_type"; VStr "ok"]]].

  (** *** telling *)
  Lemma tell_run n q E t e v b : In q qualities -> E <> "Atoms" -> t <> "Atoms" -> bget E b = Some (VStr e) -> bget t b = Some (VStr (truth_text v)) ->
    exists w1, solve cooper_mods (4 + n) (VList [VTuple [VStr "sentence_tell"; VList [VTuple [VStr q; VVar E; VVar t]]]]) b w = (Ok (SList [b]), with_out w1 ok_said) /\
      classroom w1 names aliases (tell e q v facts) rules /\ co_out w1 = [].
  Proof.
    intros Hq HE Ht Eb Tb. destruct (write_known w names aliases facts rules C (1 + n) q e v Hq) as (w1 & Ew & C1 & O1). exists w1. rewrite Ho in O1. split; [|split; [exact C1|exact O1]].
    change (4 + n) with (S (3 + n)). apply sentence_run with (r := tell_rule); [cbn; auto|reflexivity|intros a [<-|[]]; discriminate|discriminate|].
    set (A := VList [VTuple [VStr q; VVar E; VVar t]]).
    unfold solve_rule. cbn [tell_rule rule_variables ru_body ru_head elements tl].
    assert (Ev : (match b with [] => ret [] | _ :: _ => or_throw TypeErr (Some (atoms_variables [VStr "sentence_tell"; VVar "Atoms"] ++ atoms_variables [VTuple [VStr "store"; VVar "Atoms"]; VTuple [VStr "store"; VList [VTuple [VStr "output_type"; VStr "ok"]]]])) end) w
      = (Ok ["Atoms"; "Atoms"], w)) by (destruct b; [discriminate|reflexivity]).
    unfold bind at 1. rewrite Ev. set (rb := filter (fun kv : string * value => negb (existsb (String.eqb (fst kv)) ["Atoms"; "Atoms"])) b).
    assert (Hr : forall x, bget x rb = if existsb (String.eqb x) ["Atoms"; "Atoms"] then None else bget x b) by (intros x; apply bget_filter).
    assert (HrA : bget "Atoms" rb = None) by (rewrite Hr; reflexivity).
    assert (HrE : bget E rb = Some (VStr e)) by (rewrite Hr; cbn; apply String.eqb_neq in HE; now rewrite HE).
    assert (Hrt : bget t rb = Some (VStr (truth_text v))) by (rewrite Hr; cbn; apply String.eqb_neq in Ht; now rewrite Ht).
    unfold A at 1. cbn [bind_head bound_value]. fold A. rewrite HrA. unfold bind at 1. cbn [or_throw ret].
    set (rb' := bset "Atoms" A rb).
    assert (Es : solve cooper_mods (3 + n) (VList [VTuple [VStr "store"; VVar "Atoms"]; ok_atom]) rb' w = (Ok (SList [rb']), with_out w1 ok_said)).
    { apply seq_exact with (b1 := rb') (w1 := w1); [discriminate| |].
      - change (3 + n) with (S (2 + n)). assert (Hst : find_relations cooper_mods w "store" = [mkRel "store" [] q_store None]).
        { destruct (plain_core w names aliases facts rules C "store") as (q0 & Hq0 & Hf); [cbn; auto|]. injection Hq0 as <-. exact Hf. }
        rewrite (single_solve cooper_mods (2 + n) "store" _ _ rb' w Hst) by discriminate.
        cbn [r_query r_pred r_cols]. unfold bind at 1. unfold q_store. unfold bind at 1. unfold db_values. cbn [map db_value]. unfold rb' at 1. rewrite bget_bset_same. cbn [item nth_error ret c_binding].
        unfold A at 1. cbn [map].
        assert (Eb' : bind_variables (VTuple [VStr q; VVar E; VVar t]) rb' = VTuple [VStr q; VStr e; VStr (truth_text v)]).
        { cbn [bind_variables map]. unfold rb'. rewrite !bget_bset_other by congruence. now rewrite HrE, Hrt. }
        rewrite Eb'. cbn [foldM]. unfold bind at 1 2. change (S (1 + n)) with (2 + n) in Ew. rewrite Ew. cbn [ret]. unfold rows. cbn [map ret]. rewrite finish_row by reflexivity.
        cbn [match_args]. unfold rb' at 1. rewrite bget_bset_same. reflexivity.
      - pose proof (store_said w1 names aliases _ rules C1 (1 + n) (VStr "ok") "ok" rb' [] eq_refl) as H. assert (Ew1 : with_out w1 (said []) = w1) by (destruct w1; cbn in O1; now rewrite O1).
        rewrite Ew1 in H. exact H. }
    unfold solve in Es. unfold bind at 1 2. unfold ok_atom in Es. rewrite Es. cbn [sres_items ret head_rows head_row]. reflexivity.
  Qed.

  (** *** learning *)
  Lemma rules_get_add p k r rb : rules_get p (rules_add k r rb) = if String.eqb p k then Some (match rules_get k rb with Some l => l | None => [] end ++ [r]) else rules_get p rb.
  Proof.
    induction rb as [|(k' & rs) rb IH]; cbn [rules_add rules_get].
    - destruct (String.eqb p k); reflexivity.
    - destruct (String.eqb_spec k k') as [<-|N]; cbn [rules_get].
      + destruct (String.eqb_spec p k) as [->|N']; reflexivity.
      + rewrite IH. destruct (String.eqb_spec p k') as [->|N'].
        * destruct (String.eqb_spec k' k) as [->|_]; [contradiction|reflexivity].
        * reflexivity.
  Qed.
  Definition with_rules (rb : rulebase) : cooper := mkCooper (co_db w) rb (co_out w).
  Lemma learned r : In (ta_quality r) qualities -> (forall c, In c (ta_conditions r) -> In c qualities) ->
    classroom (with_rules (rules_add (ta_quality r) (rule_value r) (co_rb w))) names aliases facts (rules ++ [r]).
  Proof.
    intros Hq Hc. destruct C as [[K1 K2 K3 K4] H1 H2 H3 H4].
    assert (D : forall p, ~ In p qualities -> rules_get p (rules_add (ta_quality r) (rule_value r) (co_rb w)) = rules_get p (co_rb w)).
    { intros p Hp. rewrite rules_get_add. destruct (String.eqb_spec p (ta_quality r)) as [->|N]; [contradiction|reflexivity]. }
    assert (Nq : forall p, In p ["resolve_name"; "sentence_tell"; "sentence_learn"; "sentence_check"] \/ In p plain_predicates -> ~ In p qualities).
    { intros p Hp Hq'. assert (X : existsb (String.eqb p) (["resolve_name"; "sentence_tell"; "sentence_learn"; "sentence_check"] ++ plain_predicates) = true).
      { apply existsb_exists. exists p. split; [apply in_or_app; exact Hp|apply String.eqb_refl]. }
      unfold qualities in Hq'. repeat (destruct Hq' as [<-|Hq']; [discriminate X|]). destruct Hq'. }
    constructor; [constructor|..]; cbn [with_rules co_db co_rb].
    - exact K1.
    - intros q Hq'. rewrite rules_get_add. unfold rules_about. rewrite filter_app. cbn [filter]. destruct (String.eqb_spec q (ta_quality r)) as [->|N].
      + rewrite String.eqb_refl, K2 by exact Hq. unfold rules_about. destruct (filter _ rules) as [|a l]; [reflexivity|]. cbn [app]. f_equal.
        change (map rule_value (a :: l) ++ [rule_value r] = map rule_value ((a :: l) ++ [r])). now rewrite map_app.
      + apply not_eq_sym, String.eqb_neq in N. rewrite N, app_nil_r. exact (K2 q Hq').
    - intros r' Hr'. apply in_app_or in Hr' as [Hr'|[<-|[]]]; [now apply K3|exact Hq].
    - intros r' c Hr' Hc'. apply in_app_or in Hr' as [Hr'|[<-|[]]]; [now apply (K4 r')|now apply Hc].
    - exact H1.
    - rewrite D; [exact H2|]. apply Nq. left. now left.
    - intros p Hp. rewrite D; [now apply H3|]. apply Nq. left. now right.
    - intros p Hp. rewrite D; [now apply H4|]. apply Nq. now right.
  Qed.

  (** the rule of "no A is a B": the quality of the head with the truth value that is bound *)
  Lemma learn_run n E A B ta tb v b : In A qualities -> In B qualities -> (forall x, In x [E; ta; tb] -> ~ In x ["Head"; "Body"]) ->
    bget E b = None -> bget ta b = Some (VStr "true") -> bget tb b = Some (VStr (truth_text v)) ->
    exists w1, solve cooper_mods (4 + n) (VList [VTuple [VStr "sentence_learn"; VTuple [VStr B; VVar E; VVar tb]; VList [VTuple [VStr A; VVar E; VVar ta]]]]) b w = (Ok (SList [b]), with_out w1 ok_said) /\
      classroom w1 names aliases facts (rules ++ [mkTaught B (Anyone E) v [A]]) /\ co_out w1 = [].
  Proof.
    intros HA HB Hv Eb Ab Bb. set (r := mkTaught B (Anyone E) v [A]).
    set (w1 := with_rules (rules_add B (rule_value r) (co_rb w))).
    assert (C1 : classroom w1 names aliases facts (rules ++ [r])) by (apply (learned r); [exact HB|intros c [<-|[]]; exact HA]).
    exists w1. split; [|split; [exact C1|exact Ho]].
    set (hd := VTuple [VStr B; VVar E; VVar tb]). set (bd := VList [VTuple [VStr A; VVar E; VVar ta]]).
    change (4 + n) with (S (3 + n)). apply sentence_run with (r := learn_rule_); [cbn; auto|reflexivity|intros a [<-|[<-|[]]]; discriminate|discriminate|].
    unfold solve_rule. cbn [learn_rule_ rule_variables ru_body ru_head elements tl].
    set (vars := ["Head"; "Body"; "Head"; "Body"]).
    assert (Ev : (match b with [] => ret [] | _ :: _ => or_throw TypeErr (Some (atoms_variables [VStr "sentence_learn"; VVar "Head"; VVar "Body"] ++ atoms_variables [VTuple [VStr "learn_rule"; VVar "Head"; VVar "Body"]; VTuple [VStr "store"; VList [VTuple [VStr "output_type"; VStr "ok"]]]])) end) w
      = (Ok vars, w)) by (destruct b; [discriminate|reflexivity]).
    unfold bind at 1. rewrite Ev. set (rb := filter (fun kv : string * value => negb (existsb (String.eqb (fst kv)) vars)) b).
    assert (Hr : forall x, bget x rb = if existsb (String.eqb x) vars then None else bget x b) by (intros x; apply bget_filter).
    assert (Hx : forall x, In x [E; ta; tb] -> bget x rb = bget x b).
    { intros x Hx. rewrite Hr. destruct (existsb (String.eqb x) vars) eqn:Ex; [|reflexivity]. apply existsb_exists in Ex as (y & Hy & Ey). apply String.eqb_eq in Ey as <-.
      exfalso. apply (Hv x Hx). unfold vars in Hy. cbn in *. tauto. }
    assert (HrH : bget "Head" rb = None) by (rewrite Hr; reflexivity). assert (HrB : bget "Body" rb = None) by (rewrite Hr; reflexivity).
    set (rb' := bset "Body" bd (bset "Head" hd rb)).
    assert (Eh : bind_head b [VVar "Head"; VVar "Body"] [hd; bd] rb = Some rb').
    { unfold hd, bd. cbn [bind_head bound_value]. rewrite HrH, bget_bset_other by congruence. rewrite HrB. reflexivity. }
    rewrite Eh. unfold bind at 1. cbn [or_throw ret].
    assert (G1 : bget "Head" rb' = Some hd) by (unfold rb'; rewrite bget_bset_other by congruence; apply bget_bset_same).
    assert (G2 : bget "Body" rb' = Some bd) by (apply bget_bset_same).
    assert (G3 : forall x, In x [E; ta; tb] -> bget x rb' = bget x b).
    { intros x Hi. unfold rb'. rewrite !bget_bset_other; [now apply Hx|intros X; apply (Hv _ Hi); subst; cbn; auto|intros X; apply (Hv _ Hi); subst; cbn; auto]. }
    assert (Es : solve cooper_mods (3 + n) (VList [VTuple [VStr "learn_rule"; VVar "Head"; VVar "Body"]; ok_atom]) rb' w = (Ok (SList [rb']), with_out w1 ok_said)).
    { apply seq_exact with (b1 := rb') (w1 := w1); [discriminate| |].
      - change (3 + n) with (S (2 + n)).
        assert (Hst : find_relations cooper_mods w "learn_rule" = [mkRel "learn_rule" [] (learn_rule co_rb_lens) None]).
        { assert (Hp : rules_get "learn_rule" (co_rb w) = None) by (apply (cl_plain _ _ _ _ _ C); cbn; tauto).
          unfold find_relations, cooper_mods. cbn [find_relations_in]. unfold inference_module. change (lget co_rb_lens w) with (co_rb w). rewrite Hp. reflexivity. }
        rewrite (single_solve cooper_mods (2 + n) "learn_rule" _ _ rb' w Hst) by discriminate.
        cbn [r_query r_pred r_cols]. unfold bind at 1. unfold learn_rule. unfold db_values. cbn [map db_value]. rewrite G1, G2. unfold bind at 1. cbn [unpack2 ret]. unfold hd at 1. cbn [c_binding].
        assert (Er : mkRule (map (fun a => bind_variables a rb') [VStr B; VVar E; VVar tb]) (bind_variables bd rb') = rule_value r).
        { unfold bd, r, rule_value. cbn [map bind_variables ta_quality ta_subject ta_truth ta_conditions subject_value condition].
          rewrite !G3 by (cbn; auto). rewrite Eb, Ab, Bb. reflexivity. }
        rewrite Er. assert (Ei : insert_rule co_rb_lens (rule_value r) w = (Ok tt, w1)).
        { unfold insert_rule. cbn [rule_value ru_head r ta_quality]. assert (Hvp : valid_predicate B = true) by (unfold qualities in HB; repeat (destruct HB as [<-|HB]; [reflexivity|]); destruct HB).
          rewrite Hvp. unfold bind. cbn [get put]. reflexivity. }
        unfold bind at 1. rewrite Ei. cbn [ret]. rewrite finish_row by reflexivity. cbn [match_args]. rewrite G1, G2. reflexivity.
      - pose proof (store_said w1 names aliases facts _ C1 (1 + n) (VStr "ok") "ok" rb' [] eq_refl) as H. assert (Ew1 : with_out w1 (said []) = w1) by (unfold w1, with_rules, with_out; cbn; now rewrite Ho).
        rewrite Ew1 in H. exact H. }
    unfold solve in Es. unfold bind at 1 2. unfold ok_atom in Es. rewrite Es. cbn [sres_items ret head_rows head_row].
    unfold hd, bd. reflexivity.
  Qed.
End Lessons.

(** ** the sentences as a whole *)
Section Sentences.
  Variables (w : cooper) (names aliases : list (string * string)) (facts : string -> list (string * bool)) (rules : list taught).
  Hypothesis C : classroom w names aliases facts rules.
  Hypothesis Ho : co_out w = [].

  (** a name that is new is stored with the name of the variable as its id *)
  Lemma resolve_new n name x b : lower name = name -> filter (fun p => String.eqb (fst p) name) names = [] -> (forall p, In p aliases -> fst p <> name) -> bget x b = None ->
    exists w1, solve cooper_mods (S n) (VList [VTuple [VStr "resolve_name"; VStr name; VVar x]]) b w = (Ok (SList [bset x (VStr x) b]), w1) /\
      classroom w1 (names ++ [(name, x)]) aliases facts rules /\ co_out w1 = [].
  Proof.
    intros Hl Hf Ha Hx. eexists. split; [|split].
    - erewrite (resolve_step w names aliases facts rules C n name x b [VStr name; VStr x]); [|exact Ha|exact Hx| | |].
      2:{ unfold resolve_id. unfold bind at 1. cbn [item nth_error ret]. unfold bind at 1. cbn [item nth_error ret]. unfold bind at 1. rewrite Hl, (names_selected w names aliases facts rules C), Hf. cbn [map].
          unfold bind at 1 2. cbn [c_args item nth_error ret]. unfold bind at 1. unfold co_insert. erewrite on_conn_run.
          2:{ change (lget co_db_lens w) with (co_db w).
              apply (sq_insert_run "entity" (mkTbl ["id"; "name"] [] (map name_row names)) ["name"; "id"] [VStr name; VStr x]) with
                (gs := map (fun p => mkGiven ["name"; "id"] [VStr (fst p); VStr (snd p)]) names).
              - constructor; try reflexivity; try discriminate.
                + intros c [<-|[<-|[]]]; reflexivity.
                + intros c [<-|[<-|[]]]; cbn; auto.
              - exact (cl_names _ _ _ _ _ C).
              - reflexivity.
              - rewrite map_map. reflexivity. }
          reflexivity. }
      2: reflexivity.
      2: reflexivity.
      cbn [match_args fst snd]. rewrite Hx. unfold bind. cbn. rewrite String.eqb_refl, ?Hx. reflexivity.
    - destruct C as [[K1 K2 K3 K4] H1 H2 H3 H4]. constructor; [constructor|..]; cbn [lset co_db_lens co_db co_rb current]; try assumption.
      + intros q Hq. rewrite db_get_put. destruct (String.eqb_spec q "entity") as [->|N]; [|now apply K1].
        exfalso. unfold qualities in Hq. repeat (destruct Hq as [Hq|Hq]; [discriminate|]). destruct Hq.
      + rewrite db_get_put, H1. cbn [String.eqb Ascii.eqb Bool.eqb t_cols t_unique]. f_equal. f_equal. rewrite !map_app, map_map. reflexivity.
    - exact Ho.
  Qed.

  Lemma ok_reply n (w1 : cooper) facts1 rules1 names1 : classroom w1 names1 aliases facts1 rules1 ->
    co_out w1 = [] -> generate_output (grammar_rules cooper_replies) (solve cooper_mods (S n)) co_out_lens (S n) (with_out w1 ok_said) = (Ok (VStr "OK"), w1).
  Proof.
    intros C1 O1. pose proof (reply_run w1 names1 aliases facts1 rules1 C1 n ["ok"] "OK") as H. change (1 + n) with (S n) in H. unfold ok_said. rewrite H; [|intros u [<-|[]]; now left|reflexivity].
    f_equal. destruct w1. cbn in *. now rewrite O1.
  Qed.
End Sentences.

Definition let_is (t v : string) : value := VTuple [VStr "let"; VVar t; VStr v].
Definition scoped_ (atoms : list value) : value := VTuple [VStr "scoped"; VList atoms].
(** what is executed for "X is a N" in a lesson *)
Definition tells (name q E t : string) : list value :=
  [resolve_ name E; scoped_ [let_is t "true"; scoped_ [VTuple [VStr "sentence_tell"; VList [VTuple [VStr q; VVar E; VVar t]]]]]].
(** and for "no A is a B" ([false]), and for "As are Bs" ([true]) *)
Definition learns (A B : string) (v : bool) (E ta tb : string) : list value :=
  [let_is ta "true"; scoped_ [let_is tb (truth_text v); scoped_ [VTuple [VStr "sentence_learn"; VTuple [VStr B; VVar E; VVar tb]; VList [VTuple [VStr A; VVar E; VVar ta]]]]]].

Lemma scoped_one (w : cooper) names aliases facts rules n atoms b b1 w1 : classroom w names aliases facts rules -> solve cooper_mods n (VList atoms) b w = (Ok (SList [b1]), w1) ->
  solve cooper_mods (S n) (VList [scoped_ atoms]) b w = (Ok (SList [b]), w1).
Proof. intros C E. apply (scoped_run w names aliases facts rules C n atoms b [b1] w1 E). discriminate. Qed.
Lemma told_then (w : cooper) names aliases facts rules n q E t e b : classroom w names aliases facts rules -> co_out w = [] -> In q qualities -> E <> t ->
  (forall x, In x [E; t] -> x <> "Atoms") -> bget E b = Some (VStr e) -> bget t b = None ->
  exists w1, solve cooper_mods (6 + n) (VList [scoped_ [let_is t "true"; scoped_ [VTuple [VStr "sentence_tell"; VList [VTuple [VStr q; VVar E; VVar t]]]]]]) b w = (Ok (SList [b]), with_out w1 ok_said) /\
    classroom w1 names aliases (tell e q true facts) rules /\ co_out w1 = [].
Proof.
  intros C Ho Hq Hd Hv Eb Tb. set (b1 := bset t (VStr "true") b).
  destruct (tell_run w names aliases facts rules C Ho n q E t e true b1 Hq) as (w1 & E1 & C1 & O1).
  - apply Hv. now left.
  - apply Hv. right. now left.
  - unfold b1. now rewrite bget_bset_other by congruence.
  - apply bget_bset_same.
  - exists w1. split; [|split; [exact C1|exact O1]].
    change (6 + n) with (S (S (4 + n))). eapply scoped_one; [exact C|].
    eapply seq_exact; [discriminate|apply (plain_let w names aliases facts rules C); exact Tb|].
    eapply scoped_one; [exact C|exact E1].
Qed.

Section Taught.
  Variables (w : cooper) (names aliases : list (string * string)) (facts : string -> list (string * bool)) (rules : list taught).
  Hypothesis C : classroom w names aliases facts rules.
  Hypothesis Ho : co_out w = [].

  Theorem told_known n name e q E t : lower name = name -> is_named names aliases name e -> In q qualities -> E <> t -> (forall x, In x [E; t] -> x <> "Atoms") ->
    exists w1, run (6 + n) (tells name q E t) w = (Ok (VStr "OK"), w1) /\ classroom w1 names aliases (tell e q true facts) rules /\ co_out w1 = [].
  Proof.
    intros Hl Hn Hq Hd Hv.
    destruct (told_then w names aliases facts rules n q E t e [(E, VStr e)] C Ho Hq Hd Hv) as (w1 & E1 & C1 & O1).
    - cbn. now rewrite String.eqb_refl.
    - cbn. destruct (String.eqb_spec t E); [congruence|reflexivity].
    - exists w1. split; [|split; [exact C1|exact O1]]. unfold run, tells. erewrite seq_exact; [|discriminate| |exact E1].
      + apply (ok_reply aliases (5 + n) w1 _ _ _ C1 O1).
      + unfold resolve_. apply (resolve_known w names aliases facts rules C (5 + n) name e E [] Hl Hn eq_refl).
  Qed.
  Theorem told_new n name q E t : lower name = name -> (forall p, In p (names ++ aliases) -> fst p <> name) -> In q qualities -> E <> t -> (forall x, In x [E; t] -> x <> "Atoms") ->
    exists w1, run (6 + n) (tells name q E t) w = (Ok (VStr "OK"), w1) /\ classroom w1 (names ++ [(name, E)]) aliases (tell E q true facts) rules /\ co_out w1 = [] /\
      is_named (names ++ [(name, E)]) aliases name E.
  Proof.
    intros Hl Hn Hq Hd Hv.
    assert (Hf : filter (fun p => String.eqb (fst p) name) names = []).
    { clear C. induction names as [|p l IH]; [reflexivity|]. cbn [filter]. assert (H : fst p <> name) by (apply Hn; now left). apply String.eqb_neq in H. rewrite H. apply IH. intros p' Hp. apply Hn. now right. }
    assert (Ha : forall p, In p aliases -> fst p <> name) by (intros p Hp; apply Hn, in_or_app; now right).
    destruct (resolve_new w names aliases facts rules C Ho (5 + n) name E [] Hl Hf Ha eq_refl) as (w0 & E0 & C0 & O0).
    destruct (told_then w0 _ aliases facts rules n q E t E [(E, VStr E)] C0 O0 Hq Hd Hv) as (w1 & E1 & C1 & O1).
    - cbn. now rewrite String.eqb_refl.
    - cbn. destruct (String.eqb_spec t E); [congruence|reflexivity].
    - exists w1. split; [|split; [exact C1|split; [exact O1|]]].
      + unfold run, tells. erewrite seq_exact; [|discriminate|exact E0|exact E1]. apply (ok_reply aliases (5 + n) w1 _ _ _ C1 O1).
      + split; [|exact Ha]. rewrite filter_app, Hf. cbn [filter fst app]. now rewrite String.eqb_refl.
  Qed.
  Theorem learned_rule n A B v E ta tb : In A qualities -> In B qualities -> NoDup [E; ta; tb] -> (forall x, In x [E; ta; tb] -> ~ In x ["Head"; "Body"]) ->
    exists w1, run (6 + n) (learns A B v E ta tb) w = (Ok (VStr "OK"), w1) /\ classroom w1 names aliases facts (rules ++ [mkTaught B (Anyone E) v [A]]) /\ co_out w1 = [].
  Proof.
    intros HA HB Hd Hv. assert (D : E <> ta /\ E <> tb /\ ta <> tb).
    { repeat match goal with H : NoDup (_ :: _) |- _ => inversion H; clear H; subst end. cbn in *. intuition (subst; tauto). }
    destruct D as (D1 & D2 & D3).
    set (b2 := bset tb (VStr (truth_text v)) [(ta, VStr "true")]).
    destruct (learn_run w names aliases facts rules C Ho n E A B ta tb v b2 HA HB Hv) as (w1 & E1 & C1 & O1).
    - unfold b2. rewrite bget_bset_other by congruence. cbn. destruct (String.eqb_spec E ta); [contradiction|reflexivity].
    - unfold b2. rewrite bget_bset_other by congruence. cbn. now rewrite String.eqb_refl.
    - apply bget_bset_same.
    - exists w1. split; [|split; [exact C1|exact O1]]. unfold run, learns. erewrite seq_exact; [apply (ok_reply aliases (5 + n) w1 _ _ _ C1 O1)|discriminate| |].
      + apply (plain_let w names aliases facts rules C (5 + n)). reflexivity.
      + change (6 + n) with (S (S (4 + n))). eapply scoped_one; [exact C|].
        eapply seq_exact; [discriminate|apply (plain_let w names aliases facts rules C); cbn; destruct (String.eqb_spec tb ta); [congruence|reflexivity]|].
        eapply scoped_one; [exact C|exact E1].
  Qed.

  (** a name with capitals: nothing is solved and there is no reply *)
  Theorem capitals_fail n name e E t1 t2 t3 t4 v q atoms : lower name <> name -> filter (fun p => String.eqb (fst p) (lower name)) names = [(lower name, e)] ->
    (forall p, In p aliases -> fst p <> name) -> asks name q E t1 t2 t3 t4 v atoms -> 1 <= n ->
    solve cooper_mods n (VList atoms) [] w = (Ok (SList []), w).
  Proof.
    intros Hl Hf Ha Hk Hn. destruct n as [|n]; [lia|].
    pose proof (resolve_capitals w names aliases facts rules C n name e E [] Hl Hf Ha eq_refl) as R. fold (resolve_ name E) in R.
    destruct Hk; rewrite seq_unfold by discriminate; unfold bind at 1; rewrite R; reflexivity.
  Qed.
End Taught.
