(** * How the Cooper system answers a sentence about a named thing *)

From Coq Require Import ZArith String Ascii List Bool Arith Lia.
From Verif Require Import Py PyFacts ReprProofs Effects EffectsFacts Solver Atoms Grammar Earley CoreModule CoreProofs InferenceModule Sql SqliteDataSource DataSpec SqliteProofs2
  SimpleDataSource Memory MemoryProofs Generator Pipeline FragmentModel TalkModel SirModel SirProofs4 SirProofs5 CooperModel CooperSpec CooperProofs.
Import ListNotations.
Local Open Scope nat_scope.
Local Open Scope string_scope.
Local Open Scope list_scope.

(** ** the state of the system *)
Definition name_row (p : string * string) : list value := [VStr (snd p); VStr (fst p)].
Definition alias_rule (p : string * string) : rule := mkRule [VStr "resolve_name"; VStr (fst p); VStr (snd p)] (VList []).
Definition plain_predicates : list string := ["let"; "scoped"; "store"; "and_3v"; "not_3v"; "output_type"; "learn_rule"].

(** the names of things with their ids, the names that a rule gives to an id, the
    facts and the rules *)
Record classroom (w : cooper) (names aliases : list (string * string)) (facts : string -> list (string * bool)) (rules : list taught) : Prop := {
  cl_knows : knows w facts rules;
  cl_names : db_get "entity" (current (co_db w)) = Some (mkTbl ["id"; "name"] [] (map name_row names));
  cl_aliases : rules_get "resolve_name" (co_rb w) = match aliases with [] => None | l => Some (map alias_rule l) end;
  cl_sentences : forall p, In p ["sentence_tell"; "sentence_learn"; "sentence_check"] -> rules_get p (co_rb w) = rules_get p cooper_rules;
  cl_plain : forall p, In p plain_predicates -> rules_get p (co_rb w) = None
}.
(** [name] is the name of [e] only *)
Definition is_named (names aliases : list (string * string)) (name e : string) : Prop :=
  filter (fun p => String.eqb (fst p) name) names = [(name, e)] /\ (forall p, In p aliases -> fst p <> name).

(** the output buffer *)
Definition with_out (w : cooper) (out : sds_store) : cooper := mkCooper (co_db w) (co_rb w) out.
Definition said (l : list string) : sds_store := match l with [] => [] | _ => [("output_type", map (fun u => [("type", VStr u)]) l)] end.

Lemma classroom_out w out names aliases facts rules : classroom w names aliases facts rules -> classroom (with_out w out) names aliases facts rules.
Proof. intros [[H1 H2 H3 H4] H5 H6 H7 H8]. constructor; [constructor|..]; assumption. Qed.

(** no rule has anything to say about this name *)
Lemma no_alias (u : cooper) aliases sv name x b : (forall p, In p aliases -> fst p <> name) -> bget x b = None -> forall l acc, incl l aliases ->
  foldM (fun acc r => bind (solve_rule sv r [VStr name; VVar x] b) (fun x => ret (acc ++ x))) acc (map alias_rule l) u = (Ok acc, u).
Proof.
  intros Hn Hx. induction l as [|(m & i) l IH]; intros acc Hi; [reflexivity|]. cbn [map foldM]. unfold bind at 1 2.
  assert (E : solve_rule sv (alias_rule (m, i)) [VStr name; VVar x] b u = (Ok [], u)).
  { unfold solve_rule. cbn [alias_rule rule_variables ru_body ru_head elements fst snd tl].
    assert (Ev : (match b with [] => ret [] | _ :: _ => or_throw TypeErr (Some (atoms_variables [VStr "resolve_name"; VStr m; VStr i] ++ atoms_variables [])) end) u = (Ok [], u)) by (now destruct b).
    unfold bind at 1. rewrite Ev. cbn [bind_head bound_value].
    change (py_eq (VStr name) (VStr m)) with (String.eqb name m). destruct (String.eqb_spec name m) as [->|N]; [|reflexivity].
    destruct (Hn (m, i)); [apply Hi; now left|reflexivity]. }
  rewrite E. cbn [ret]. rewrite app_nil_r. apply IH. intros p Hp. apply Hi. now right.
Qed.

Section Classroom.
  Variables (w : cooper) (names aliases : list (string * string)) (facts : string -> list (string * bool)) (rules : list taught).
  Hypothesis C : classroom w names aliases facts rules.

  Lemma plain_core p : In p ["let"; "scoped"; "store"] -> exists q, table_get p core_table = Some q /\ find_relations cooper_mods w p = [mkRel p [] q None].
  Proof.
    intros H. assert (Hp : rules_get p (co_rb w) = None) by (apply (cl_plain _ _ _ _ _ C); cbn in *; tauto).
    unfold find_relations, cooper_mods. cbn [find_relations_in]. unfold inference_module. change (lget co_rb_lens w) with (co_rb w). rewrite Hp.
    repeat (destruct H as [<-|H]; [eexists; split; reflexivity|]). destruct H.
  Qed.
  Lemma plain_let n x v b : bget x b = None ->
    solve cooper_mods (S n) (VList [VTuple [VStr "let"; VVar x; VStr v]]) b w = (Ok (SList [bset x (VStr v) b]), w).
  Proof.
    intros Hx. destruct (plain_core "let" ltac:(cbn; auto)) as (q & Hq & Hf). injection Hq as <-.
    rewrite (single_solve cooper_mods n "let" _ [VVar x; VStr v] b w Hf) by discriminate. cbn [r_query r_pred r_cols].
    unfold db_values. cbn [map db_value]. rewrite Hx. unfold bind, q_let, rows. cbn. rewrite Hx. unfold bind. cbn. rewrite String.eqb_refl. reflexivity.
  Qed.
  Lemma plain_3v p q : In (p, q) [("and_3v", and_3v); ("not_3v", not_3v)] -> find_relations cooper_mods w p = [mkRel p [] q None].
  Proof.
    intros H. assert (Hp : rules_get p (co_rb w) = None) by (apply (cl_plain _ _ _ _ _ C); cbn in *; destruct H as [[= <- <-]|[[= <- <-]|[]]]; tauto).
    unfold find_relations, cooper_mods. cbn [find_relations_in]. unfold inference_module. change (lget co_rb_lens w) with (co_rb w). rewrite Hp.
    destruct H as [[= <- <-]|[[= <- <-]|[]]]; reflexivity.
  Qed.

  (** ** the truth tables *)
  Definition three : list string := ["true"; "false"; "unknown"].
  Definition and3 (u v : string) : string :=
    if String.eqb u "unknown" || String.eqb v "unknown" then "unknown" else if String.eqb u "true" && String.eqb v "true" then "true" else "false".
  Definition not3 (u : string) : string := if String.eqb u "true" then "false" else if String.eqb u "false" then "true" else "unknown".

  Lemma and_run n x y z u v b : In u three -> In v three -> bget x b = Some (VStr u) -> bget y b = Some (VStr v) -> bget z b = None ->
    solve cooper_mods (S n) (VList [VTuple [VStr "and_3v"; VVar x; VVar y; VVar z]]) b w = (Ok (SList [bset z (VStr (and3 u v)) b]), w).
  Proof.
    intros Hu Hv Hx Hy Hz. rewrite (single_solve cooper_mods n "and_3v" _ [VVar x; VVar y; VVar z] b w (plain_3v "and_3v" and_3v (or_introl eq_refl))) by discriminate.
    cbn [r_query r_pred r_cols]. unfold db_values. cbn [map db_value]. rewrite Hx, Hy, Hz.
    assert (E : forall sv c, and_3v sv [VStr u; VStr v; VNone] c w = (Ok (QRows [VList [VNone; VNone; VStr (and3 u v)]]), w)).
    { intros sv c. repeat (destruct Hu as [<-|Hu]; [repeat (destruct Hv as [<-|Hv]; [reflexivity|]); destruct Hv|]). destruct Hu. }
    unfold bind at 1. rewrite E. rewrite finish_row by reflexivity. cbn [match_args]. rewrite Hx, Hy, Hz. unfold bind. cbn. rewrite ?Hz. reflexivity.
  Qed.
  Lemma not_run n x z u b : In u three -> bget x b = Some (VStr u) -> bget z b = None ->
    solve cooper_mods (S n) (VList [VTuple [VStr "not_3v"; VVar x; VVar z]]) b w = (Ok (SList [bset z (VStr (not3 u)) b]), w).
  Proof.
    intros Hu Hx Hz. rewrite (single_solve cooper_mods n "not_3v" _ [VVar x; VVar z] b w (plain_3v "not_3v" not_3v (or_intror (or_introl eq_refl)))) by discriminate.
    cbn [r_query r_pred r_cols]. unfold db_values. cbn [map db_value]. rewrite Hx, Hz.
    assert (E : forall sv c, not_3v sv [VStr u; VNone] c w = (Ok (QRows [VList [VNone; VStr (not3 u)]]), w)).
    { intros sv c. repeat (destruct Hu as [<-|Hu]; [reflexivity|]). destruct Hu. }
    unfold bind at 1. rewrite E. rewrite finish_row by reflexivity. cbn [match_args]. rewrite Hx, Hz. unfold bind. cbn. rewrite ?Hz. reflexivity.
  Qed.

  (** ** names *)
  Lemma names_selected name : co_select "entity" ["name"; "id"] [VStr name; VNone] w =
    (Ok (map (fun p => [VStr (fst p); VStr (snd p)]) (filter (fun p => String.eqb (fst p) name) names)), w).
  Proof.
    unfold co_select. erewrite on_conn_run.
    2:{ change (lget co_db_lens w) with (co_db w).
        apply (sq_select_run "entity" (mkTbl ["id"; "name"] [] (map name_row names)) ["name"; "id"] [VStr name; VNone]) with
          (gs := map (fun p => mkGiven ["name"; "id"] [VStr (fst p); VStr (snd p)]) names).
        - constructor; try reflexivity; try discriminate.
          + intros c [<-|[<-|[]]]; reflexivity.
          + intros c [<-|[<-|[]]]; cbn; auto.
        - exact (cl_names _ _ _ _ _ C).
        - rewrite map_map. reflexivity. }
    f_equal.
    - f_equal. unfold spec_select. clear C. induction names as [|(u & v) fs IH]; [reflexivity|].
      cbn [map filter fst snd].
      match goal with |- context [fits ?a ?b ?c] => assert (E : fits a b c = String.eqb u name) end.
      { unfold fits, field. cbn [forall2b at_column g_cols g_vals is_none orb]. change (String.eqb "name" "name") with true. cbv iota. rewrite andb_true_r. reflexivity. }
      rewrite E. destruct (String.eqb_spec u name) as [->|N]; [|exact IH].
      cbn [map]. f_equal. exact IH.
    - destruct w as [[c d] rb out]. reflexivity.
  Qed.

  Lemma names_known : find_relations cooper_mods w "resolve_name" =
    mkRel "resolve_name" [] resolve_id None :: match aliases with [] => [] | _ => [mkRel "resolve_name" [] (handle_rule co_rb_lens) None] end.
  Proof.
    unfold find_relations, cooper_mods. cbn [find_relations_in]. unfold inference_module. change (lget co_rb_lens w) with (co_rb w). rewrite (cl_aliases _ _ _ _ _ C).
    destruct aliases; reflexivity.
  Qed.
  (** what [resolve_name] gives, when the rules have nothing to say *)
  Lemma resolve_step n name x b r w1 : (forall p, In p aliases -> fst p <> name) -> bget x b = None ->
    resolve_id (solver_at cooper_mods n) [VStr name; VNone] (mkCtx "resolve_name" [] [VStr name; VVar x] b) w = (Ok (QRows [VList r]), w1) ->
    (co_rb w1 = co_rb w) -> length r = 2 ->
    solve cooper_mods (S n) (VList [VTuple [VStr "resolve_name"; VStr name; VVar x]]) b w =
    bind (match_args (VList r) b 0 [VStr name; VVar x] b false) (fun rc => ret (SList (if snd rc : bool then [] else [fst rc]))) w1.
  Proof.
    intros Hn Hx Er Hrb Hl.
    unfold solve. cbn [solver_at sv_solve]. unfold solve_F. cbn [solve_atoms]. unfold solve_single. unfold bind at 1. cbn [atom_parts ret].
    change (String.eqb "resolve_name" DISJUNCTION) with false. cbv iota. unfold solve_relation, find_relation_values. unfold bind at 1 2. cbn [get].
    rewrite names_known.
    set (rest := match aliases with [] => [] | _ => [mkRel "resolve_name" [] (handle_rule co_rb_lens) None] end).
    assert (Ed : db_values b [VStr name; VVar x] = [VStr name; VNone]) by (unfold db_values; cbn [map db_value]; now rewrite Hx).
    rewrite Ed. cbv zeta.
    assert (Erest : forall many vals, collect_rows (solver_at cooper_mods n) many rest vals [VStr name; VVar x] b [VList r] w1 = (Ok (QRows [VList r]), w1)).
    { intros many vals. subst rest. pose proof (cl_aliases _ _ _ _ _ C) as Ea. destruct aliases as [|a l] eqn:El; [reflexivity|].
      cbn [collect_rows]. unfold bind at 1. cbn [r_query r_pred r_cols]. unfold handle_rule. unfold bind at 1. cbn [get c_pred c_args c_binding].
      change (lget co_rb_lens w1) with (co_rb w1). rewrite Hrb, Ea. unfold bind at 1.
      pose proof (no_alias w1 _ (solver_at cooper_mods n) name x b Hn Hx _ [] (incl_refl _)) as E.
      rewrite E. reflexivity. }
    change (collect_rows (solver_at cooper_mods n) (Nat.ltb 1 (length (mkRel "resolve_name" [] resolve_id None :: rest))) (mkRel "resolve_name" [] resolve_id None :: rest) [VStr name; VNone] [VStr name; VVar x] b [] w)
      with (bind (resolve_id (solver_at cooper_mods n) [VStr name; VNone] (mkCtx "resolve_name" [] [VStr name; VVar x] b)) (fun out => match out with
        | QIter s k => if Nat.ltb 1 (length (mkRel "resolve_name" [] resolve_id None :: rest)) then throw (not_combined "resolve_name") else ret (QIter s k)
        | QNotIterable => throw TypeErr
        | QRows out_values => collect_rows (solver_at cooper_mods n) (Nat.ltb 1 (length (mkRel "resolve_name" [] resolve_id None :: rest))) rest [VStr name; VNone] [VStr name; VVar x] b (fold_left add_row out_values [])
        end) w).
    unfold bind at 1. rewrite Er. change (fold_left add_row [VList r] []) with [VList r]. rewrite Erest.
    cbn [check_first_row]. apply Nat.eqb_eq in Hl. change (length [VStr name; VVar x]) with 2. rewrite Hl. unfold bind at 1. cbn [ret].
    unfold create_results. cbn [foldM]. unfold bind. destruct (match_args (VList r) b 0 [VStr name; VVar x] b false w1) as [[[rr []]|e|] w2]; reflexivity.
  Qed.

  (** a name that is known *)
  Lemma resolve_known n name e x b : lower name = name -> is_named names aliases name e -> bget x b = None ->
    solve cooper_mods (S n) (VList [VTuple [VStr "resolve_name"; VStr name; VVar x]]) b w = (Ok (SList [bset x (VStr e) b]), w).
  Proof.
    intros Hl (Hf & Ha) Hx. erewrite resolve_step; [|exact Ha|exact Hx| |reflexivity|].
    2:{ unfold resolve_id. unfold bind at 1. cbn [item nth_error ret]. unfold bind at 1. cbn [item nth_error ret]. unfold bind at 1. rewrite Hl, names_selected, Hf. reflexivity. }
    2: reflexivity.
    cbn [match_args fst snd]. rewrite Hx. unfold bind. cbn. rewrite String.eqb_refl, ?Hx. reflexivity.
  Qed.
  (** a name in capitals, known or not, is no name at all *)
  Lemma resolve_capitals n name e x b : lower name <> name -> filter (fun p => String.eqb (fst p) (lower name)) names = [(lower name, e)] ->
    (forall p, In p aliases -> fst p <> name) -> bget x b = None ->
    solve cooper_mods (S n) (VList [VTuple [VStr "resolve_name"; VStr name; VVar x]]) b w = (Ok (SList []), w).
  Proof.
    intros Hl Hf Ha Hx. erewrite resolve_step; [|exact Ha|exact Hx| |reflexivity|].
    2:{ unfold resolve_id. unfold bind at 1. cbn [item nth_error ret]. unfold bind at 1. cbn [item nth_error ret]. unfold bind at 1. rewrite names_selected, Hf. reflexivity. }
    2: reflexivity.
    cbn [match_args fst snd]. rewrite Hx. unfold bind. cbn. rewrite ?Hx. apply not_eq_sym in Hl. apply String.eqb_neq in Hl. rewrite Hl. reflexivity.
  Qed.

  (** ** saying the truth value *)
  Lemma out_known out : find_relations cooper_mods (with_out w out) "output_type" =
    [memory_relation (buffer_select co_out_lens) (buffer_insert co_out_lens) "output_type" ["type"]].
  Proof.
    assert (Hp : rules_get "output_type" (co_rb w) = None) by (apply (cl_plain _ _ _ _ _ C); cbn; tauto).
    unfold find_relations, cooper_mods. cbn [find_relations_in]. unfold inference_module. change (lget co_rb_lens (with_out w out)) with (co_rb w). rewrite Hp. reflexivity.
  Qed.
  Lemma store_known out : find_relations cooper_mods (with_out w out) "store" = [mkRel "store" [] q_store None].
  Proof.
    assert (Hp : rules_get "store" (co_rb w) = None) by (apply (cl_plain _ _ _ _ _ C); cbn; tauto).
    unfold find_relations, cooper_mods. cbn [find_relations_in]. unfold inference_module. change (lget co_rb_lens (with_out w out)) with (co_rb w). rewrite Hp. reflexivity.
  Qed.
  Lemma said_more l u : sds_insert "output_type" ["type"] [VStr u] (said l) = said (l ++ [u]).
  Proof. destruct l as [|v l]; [reflexivity|]. unfold said, sds_insert. cbn. rewrite map_app. reflexivity. Qed.

  Lemma store_said n t u b l : bind_variables t b = VStr u ->
    solve cooper_mods (2 + n) (VList [VTuple [VStr "store"; VList [VTuple [VStr "output_type"; t]]]]) b (with_out w (said l)) =
    (Ok (SList [b]), with_out w (said (l ++ [u]))).
  Proof.
    intros Ht. change (2 + n) with (S (S n)).
    rewrite (single_solve cooper_mods (S n) "store" _ _ b (with_out w (said l)) (store_known (said l))) by discriminate.
    cbn [r_query r_pred r_cols]. unfold bind at 1. unfold q_store. unfold bind at 1. cbn [db_values map db_value item nth_error ret c_binding].
    assert (Ew : sv_write (solver_at cooper_mods (S n)) (VTuple [VStr "output_type"; VStr u]) (with_out w (said l)) = (Ok tt, with_out w (said (l ++ [u])))).
    { cbn [solver_at sv_write]. unfold write_F. unfold bind at 1. cbn [atom_parts ret]. unfold bind at 1. cbn [get]. rewrite (out_known (said l)).
      cbn [write_rels memory_relation r_write r_pred r_cols]. unfold bind at 1. unfold memory_write. cbn [c_pred c_cols]. unfold buffer_insert. unfold bind at 1. cbn [get put].
      change (lget co_out_lens (with_out w (said l))) with (said l). rewrite said_more. reflexivity. }
    assert (Eb : bind_variables (VTuple [VStr "output_type"; t]) b = VTuple [VStr "output_type"; VStr u]) by (cbn [bind_variables map]; now rewrite Ht).
    cbn [foldM map]. rewrite Eb. unfold bind at 1 2. rewrite Ew. cbn [ret]. unfold rows. cbn [map ret].
    rewrite finish_row by reflexivity. unfold bind. cbn. reflexivity.
  Qed.
  Lemma check_run n x u b l : bget x b = Some (VStr u) ->
    solve cooper_mods (3 + n) (VList [VTuple [VStr "sentence_check"; VVar x]]) b (with_out w (said l)) = (Ok (SList [b]), with_out w (said (l ++ [u]))).
  Proof.
    intros Hx.
    assert (Hs : rules_get "sentence_check" (co_rb w) = rules_get "sentence_check" cooper_rules) by (apply (cl_sentences _ _ _ _ _ C); cbn; auto).
    assert (Hf : find_relations cooper_mods (with_out w (said l)) "sentence_check" = [mkRel "sentence_check" [] (handle_rule co_rb_lens) None]).
    { unfold find_relations, cooper_mods. cbn [find_relations_in]. unfold inference_module. change (lget co_rb_lens (with_out w (said l))) with (co_rb w). rewrite Hs. reflexivity. }
    change (3 + n) with (S (2 + n)). rewrite (single_solve cooper_mods (2 + n) "sentence_check" _ _ b (with_out w (said l)) Hf) by discriminate.
    cbn [r_query r_pred r_cols]. unfold handle_rule. unfold bind at 1 2. cbn [get c_pred c_args c_binding].
    change (lget co_rb_lens (with_out w (said l))) with (co_rb w). rewrite Hs.
    change (rules_get "sentence_check" cooper_rules) with (Some [mkRule [VStr "sentence_check"; VVar "Truth"] (VList [VTuple [VStr "store"; VList [VTuple [VStr "output_type"; VVar "Truth"]]]])]).
    cbn [foldM]. unfold bind at 1 2 3.
    assert (E : solve_rule (solver_at cooper_mods (2 + n)) (mkRule [VStr "sentence_check"; VVar "Truth"] (VList [VTuple [VStr "store"; VList [VTuple [VStr "output_type"; VVar "Truth"]]]])) [VVar x] b (with_out w (said l))
      = (Ok [[VStr u]], with_out w (said (l ++ [u])))).
    { unfold solve_rule. cbn [rule_variables ru_body ru_head elements tl].
      assert (Ev : (match b with [] => ret [] | _ :: _ => or_throw TypeErr (Some (atoms_variables [VStr "sentence_check"; VVar "Truth"] ++ atoms_variables [VTuple [VStr "store"; VList [VTuple [VStr "output_type"; VVar "Truth"]]]])) end) (with_out w (said l))
        = (Ok ["Truth"; "Truth"], with_out w (said l))) by (destruct b; [discriminate|reflexivity]).
      unfold bind at 1. rewrite Ev. cbn [bind_head bound_value]. rewrite Hx.
      set (rb := filter (fun kv : string * value => negb (existsb (String.eqb (fst kv)) ["Truth"; "Truth"])) b).
      assert (Hr : bget "Truth" rb = None).
      { subst rb. clear. induction b as [|(k & v) b IH]; [reflexivity|]. cbn [filter fst existsb]. destruct (String.eqb_spec k "Truth") as [->|N]; cbn [orb negb]; [exact IH|].
        cbn [bget]. destruct (String.eqb_spec "Truth" k) as [<-|_]; [contradiction|exact IH]. }
      rewrite Hr. unfold bind at 1. cbn [elements or_throw ret]. unfold bind at 1 2.
      pose proof (store_said n (VVar "Truth") u (bset "Truth" (VStr u) rb) l) as Es. unfold solve in Es. rewrite Es by (cbn [bind_variables]; now rewrite bget_bset_same).
      cbn [sres_items ret head_rows head_row]. rewrite bget_bset_same. reflexivity. }
    rewrite E. cbn [ret app map]. rewrite finish_row by reflexivity. cbn [match_args]. rewrite Hx. reflexivity.
  Qed.

  (** ** parts of a sentence on their own *)
  Lemma scoped_run n atoms b bs w1 : solve cooper_mods n (VList atoms) b w = (Ok (SList bs), w1) -> bs <> [] ->
    solve cooper_mods (S n) (VList [VTuple [VStr "scoped"; VList atoms]]) b w = (Ok (SList [b]), w1).
  Proof.
    intros E Hb. destruct (plain_core "scoped" ltac:(cbn; auto)) as (q & Hq & Hf). injection Hq as <-.
    rewrite (single_solve cooper_mods n "scoped" _ [VList atoms] b w Hf) by discriminate. cbn [r_query r_pred r_cols db_values map db_value].
    unfold bind at 1. unfold q_scoped. unfold bind at 1. cbn [item nth_error ret c_binding]. unfold bind at 1. unfold solve in E. rewrite E.
    destruct bs as [|b1 bs]; [contradiction|]. cbn [sres_len length]. unfold rows. cbn [map ret]. rewrite finish_row by reflexivity. reflexivity.
  Qed.

  (** ** the reply *)
  Lemma said_select t l : sds_select "output_type" ["type"] [VStr t] (said l) = Ok (map (fun u => [VStr u]) (filter (fun u => String.eqb u t) l)).
  Proof.
    destruct l as [|v l]; [reflexivity|]. unfold said, sds_select. change (sds_get "output_type" [("output_type", map (fun u => [("type", VStr u)]) (v :: l))]) with (Some (map (fun u => [("type", VStr u)]) (v :: l))).
    change (create_dict ["type"] [VStr t]) with [("type", VStr t)].
    induction (v :: l) as [|c l0 IH]; [reflexivity|]. cbn [map sds_rows filter]. unfold sds_record_ok. cbn [forallb fst snd bget].
    change (String.eqb "type" "type") with true. cbv iota. change (py_eq (VStr c) (VStr t)) with (String.eqb c t). destruct (String.eqb_spec c t) as [->|N]; cbn [andb]; [|exact IH].
    change (sds_row [("type", VStr t)] ["type"]) with (Ok [VStr t]). cbv iota. rewrite IH. reflexivity.
  Qed.
  Lemma same_rows t l : map (fun u => VList [VStr u]) (filter (fun u => String.eqb u t) l) = repeat (VList [VStr t]) (length (filter (fun u => String.eqb u t) l)).
  Proof.
    induction l as [|c l IH]; [reflexivity|]. cbn [filter]. destruct (String.eqb_spec c t) as [->|N]; [|exact IH]. cbn [map length repeat]. now f_equal.
  Qed.
  Lemma type_run n t l : solve cooper_mods (S n) (VList [VTuple [VStr "output_type"; VStr t]]) [] (with_out w (said l)) =
    (Ok (SList (if existsb (fun u => String.eqb u t) l then [[]] else [])), with_out w (said l)).
  Proof.
    rewrite (single_solve cooper_mods n "output_type" _ [VStr t] [] _ (out_known (said l))) by discriminate.
    cbn [memory_relation r_query r_pred r_cols db_values map db_value]. unfold bind at 1. unfold memory_query. unfold bind at 1. cbn [c_pred c_cols]. unfold buffer_select.
    unfold bind at 1. cbn [get]. change (lget co_out_lens (with_out w (said l))) with (said l). rewrite said_select. cbn [ret]. rewrite map_map, same_rows.
    rewrite (finish_same [VStr t] [] [VStr t]); [|reflexivity|].
    - do 3 f_equal. induction l as [|c l IH]; [reflexivity|]. cbn [filter existsb]. destruct (String.eqb c t); [reflexivity|exact IH].
    - cbn [match_args]. unfold bind. cbn. rewrite String.eqb_refl. reflexivity.
  Qed.

  (** the first of these that has been said *)
  Fixpoint first_said (l : list string) (replies : list (string * string)) : option string :=
    match replies with
    | [] => None
    | (t, r) :: rest => if existsb (fun u => String.eqb u t) l then Some r else first_said l rest
    end.
  Definition reply_of (l : list string) : option string :=
    first_said l [("ok", "OK"); ("true", "True"); ("false", "False"); ("unknown", "Unable to answer")].
  Lemma existsb_out l t : (forall u, In u l -> In u ["ok"; "true"; "false"; "unknown"]) -> ~ In t ["ok"; "true"; "false"; "unknown"] -> existsb (fun u => String.eqb u t) l = false.
  Proof.
    intros Hl Ht. destruct (existsb (fun u => String.eqb u t) l) eqn:E; [|reflexivity]. apply existsb_exists in E as (u & Hu & E). apply String.eqb_eq in E as ->. destruct Ht. now apply Hl.
  Qed.
  Lemma loop_skip slv (r : grule (@wmean cooper)) rest (w0 : cooper) : k_args (g_ante r) = [] -> no_condition (w_if (g_mean r)) = false ->
    slv (w_if (g_mean r)) [] w0 = (Ok (SList []), w0) ->
    find_rule_loop slv [] [] (r :: rest) None [] false w0 = find_rule_loop slv [] [] rest None [] false w0.
  Proof.
    intros Ha Hc E. change (find_rule_loop slv [] [] (r :: rest) None [] false w0) with
      (bind (if no_condition (w_if (g_mean r)) then ret (Some r, init_binding (k_args (g_ante r)) [] [], true)
             else bind (slv (w_if (g_mean r)) (init_binding (k_args (g_ante r)) [] [])) (fun x => match x with
               | SList [] => ret (None, init_binding (k_args (g_ante r)) [] [], false)
               | SList (b1 :: _) => ret (Some r, b1, true)
               | SIter _ O => ret (None, init_binding (k_args (g_ante r)) [] [], false)
               | SIter _ (S _) => throw TypeErr end))
        (fun step => let '(result', b', found') := step in
          if (found' && negb (hash_in (g_hash r) []))%bool then ret (result', b', found') else find_rule_loop slv [] [] rest result' b' found') w0).
    rewrite Ha, Hc. cbn [init_binding]. unfold bind at 1. unfold bind at 1. rewrite E. reflexivity.
  Qed.
  Lemma loop_take slv (r : grule (@wmean cooper)) rest (w0 : cooper) b1 bs : k_args (g_ante r) = [] -> no_condition (w_if (g_mean r)) = false ->
    slv (w_if (g_mean r)) [] w0 = (Ok (SList (b1 :: bs)), w0) ->
    find_rule_loop slv [] [] (r :: rest) None [] false w0 = (Ok (Some r, b1, true), w0).
  Proof.
    intros Ha Hc E. change (find_rule_loop slv [] [] (r :: rest) None [] false w0) with
      (bind (if no_condition (w_if (g_mean r)) then ret (Some r, init_binding (k_args (g_ante r)) [] [], true)
             else bind (slv (w_if (g_mean r)) (init_binding (k_args (g_ante r)) [] [])) (fun x => match x with
               | SList [] => ret (None, init_binding (k_args (g_ante r)) [] [], false)
               | SList (b1 :: _) => ret (Some r, b1, true)
               | SIter _ O => ret (None, init_binding (k_args (g_ante r)) [] [], false)
               | SIter _ (S _) => throw TypeErr end))
        (fun step => let '(result', b', found') := step in
          if (found' && negb (hash_in (g_hash r) []))%bool then ret (result', b', found') else find_rule_loop slv [] [] rest result' b' found') w0).
    rewrite Ha, Hc. cbn [init_binding]. unfold bind at 1. unfold bind at 1. rewrite E. reflexivity.
  Qed.

  Lemma find_said slv l r : reply_of l = Some r ->
    (forall t, slv (VList [out "output_type" [VStr t]]) [] (with_out w (said l)) = (Ok (SList (if existsb (fun u => String.eqb u t) l then [[]] else [])), with_out w (said l))) ->
    forall rest, exists t, find_rule_loop slv [] [] (says "OK" "ok" :: says "True" "true" :: says "False" "false" :: says "Unable to answer" "unknown" :: rest) None [] false (with_out w (said l))
      = (Ok (Some (says r t), [], true), with_out w (said l)).
  Proof.
    intros Hr Hs rest. unfold reply_of in Hr. cbn [first_said] in Hr.
    repeat match goal with
    | |- exists t, find_rule_loop _ _ _ (says ?x ?y :: _) _ _ _ _ = _ =>
        destruct (existsb (fun u => String.eqb u y) l) eqn:?E;
        [injection Hr as <-; exists y; eapply loop_take; [reflexivity|reflexivity|cbn [says write_rule new_rule g_mean w_if]; rewrite Hs, E; reflexivity]|
         rewrite loop_skip; [|reflexivity|reflexivity|cbn [says write_rule new_rule g_mean w_if]; rewrite Hs, E; reflexivity]]; clear E
    end.
    discriminate.
  Qed.
  Lemma reply_run n l r : (forall u, In u l -> In u ["ok"; "true"; "false"; "unknown"]) -> reply_of l = Some r ->
    generate_output (grammar_rules cooper_replies) (solve cooper_mods (S n)) co_out_lens (1 + n) (with_out w (said l)) = (Ok (VStr r), with_out w []).
  Proof.
    intros Hl Hr.
    assert (Hs : forall t, solve cooper_mods (S n) (VList [out "output_type" [VStr t]]) [] (with_out w (said l)) = (Ok (SList (if existsb (fun u => String.eqb u t) l then [[]] else [])), with_out w (said l))) by (intros t; apply type_run).
    assert (Hn : forall t, ~ In t ["ok"; "true"; "false"; "unknown"] -> solve cooper_mods (S n) (VList [out "output_type" [VStr t]]) [] (with_out w (said l)) = (Ok (SList []), with_out w (said l))).
    { intros t Ht. rewrite Hs, existsb_out by assumption. reflexivity. }
    assert (Ef : exists t, find_rule (grammar_rules cooper_replies) (solve cooper_mods (S n)) [] "s" [] (with_out w (said l)) = (Ok (Some (says r t), [], true), with_out w (said l))).
    { unfold find_rule. change (find_rules (grammar_rules cooper_replies) "s" (length (@nil value))) with cooper_replies. unfold cooper_replies.
      rewrite loop_skip; [|reflexivity|reflexivity|apply Hn; cbn; intuition discriminate].
      rewrite loop_skip; [|reflexivity|reflexivity|apply Hn; cbn; intuition discriminate].
      rewrite loop_skip; [|reflexivity|reflexivity|].
      - apply (find_said (solve cooper_mods (S n)) l r Hr Hs []).
      - cbn [write_rule new_rule g_mean w_if]. apply then_nothing. apply Hn. cbn. intuition discriminate. }
    destruct Ef as (t & Ef). unfold generate_output. change (1 + n) with (S n). cbn [generate_node]. unfold bind at 1. unfold generate_node_F. unfold bind at 1. rewrite Ef.
    reflexivity.
  Qed.
End Classroom.
