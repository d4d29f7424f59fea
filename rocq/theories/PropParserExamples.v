(** * C60-C72: concrete grammars, and where the code deviates *)

From Coq Require Import ZArith String Ascii List Bool Arith Lia Permutation Sorted.
From Verif Require Import Py Effects Grammar Earley ParserSpec GrammarProofs EarleyProofs EarleyProofs2 EarleyProofs3
  EarleyProofs4 EarleyProofs5 EarleyProofs6 EarleyProofs7 ParserFacts PropParser RegexProofs2.
Import ListNotations.
Local Open Scope string_scope.
Local Open Scope list_scope.

(** ** the regular expressions of Python *)
Definition demo_re : string -> string -> outcome (option string) := py_match.
Lemma demo_re_ok : re_ok demo_re.
Proof. exact py_match_prefix. Qed.

(** ** a grammar *)
Definition rel (p : string) (args : list string) : constituent := mkCons p args PRelation false false.
Definition word (w : string) : constituent := mkCons w [] PWord false false.
Definition blank : constituent := mkCons " " [] PWord false true.
Definition opt_word (w : string) : constituent := mkCons w [] PWord true false.
Definition rgx (w : string) : constituent := mkCons w ["T"] PRegExp false false.
Definition scan_m (o : option string) : string := match o with Some w => w | None => "" end.

Definition demo : list (grule string) := [
  new_rule (rel "s" ["V"]) [rel "np" ["E"]; blank; rel "vp" ["V"]; blank; opt_word "now"] "sentence" 0;
  new_rule (rel "np" ["E"]) [rgx "\w+"] "name" 0;
  new_rule (rel "np" ["E"]) [word "mary"] "mary" 1;
  new_rule (rel "vp" ["V"]) [word "sleeps"] "sleep" 0
].

Ltac each := repeat match goal with |- Forall _ (_ :: _) => constructor | |- Forall _ [] => constructor end.
Lemma demo_proper : Forall proper_rule demo.
Proof.
  unfold demo. each; constructor; try (split; cbn; discriminate); intros c H; cbn in H;
  repeat (destruct H as [<-|H]; [split; [intros T; cbn in T |- *; try discriminate T; split; discriminate|cbn; discriminate]|]); destruct H.
Qed.

(** a grammar by its list of variants *)
Lemma in_grammar_list {S} (rules : list (grule S)) r : in_grammar rules r <-> In r (flat_map create_rule_variants rules).
Proof.
  rewrite in_flat_map. unfold in_grammar. split; intros (r0 & H0 & H); exists r0; (split; [exact H0|]); now apply (proj1 (variants_spec r0)).
Qed.
Lemma demo_plain : forall r, in_grammar demo r -> solid r /\ k_type (g_ante r) = PRelation.
Proof.
  intros r H. apply in_grammar_list in H. cbn in H.
  repeat (destruct H as [<-|H]; [split; [split; [discriminate|]; intros c H; cbn in H; repeat (destruct H as [<-|H]; [cbn; congruence|]); destruct H|reflexivity]|]); destruct H.
Qed.
Lemma demo_patterns : patterns_ok demo_re (in_grammar demo).
Proof.
  intros r c H Hc Ek s. apply in_grammar_list in H. cbn in H.
  repeat (destruct H as [<-|H]; [cbn in Hc; repeat (destruct Hc as [<-|Hc]; [try discriminate Ek; eexists; reflexivity|]); destruct Hc|]); destruct H.
Qed.
Definition demo_rank (p : string) (n : nat) : nat := 0.
Lemma demo_acyclic : acyclic_units demo demo_rank.
Proof.
  intros r c H E T. apply in_grammar_list in H. cbn in H.
  repeat (destruct H as [<-|H]; [cbn in E; try discriminate E; injection E as <-; discriminate T|]); destruct H.
Qed.

Definition demo_parse := parser_process scan_m "delta" "gamma" demo_re.
Definition demo_ix : gindex string := grammar_rules demo.
Definition reads (o : outcome (presult (@tree string))) : option (list (list string) * string * list string) :=
  match o with
  | Ok r => Some (map (fun t => map g_mean (nodes t)) (pr_products r), pr_error r, pr_args r)
  | _ => None
  end.

(** Two trees: the boosted rule comes first. *)
Example C61_C62_C67_example :
  reads (fst (demo_parse 100 "Mary   sleeps" demo_ix)) =
  Some ([["sentence"; "mary"; ""; ""; "sleep"; ""]; ["sentence"; "name"; "Mary"; ""; "sleep"; ""]], "", []).
Proof. vm_compute. reflexivity. Qed.
(** The optional word goes with its separator. *)
Example C71_example :
  reads (fst (demo_parse 100 "John sleeps now" demo_ix)) = Some ([["sentence"; "name"; "John"; ""; "sleep"; ""; ""; ""]], "", []) /\
  reads (fst (demo_parse 100 "John sleeps " demo_ix)) = Some ([], "not_understood", []).
Proof. split; vm_compute; reflexivity. Qed.
Example C65_example :
  after_parses scan_m "delta" "gamma" demo_re [(100, "John sleeps"); (3, "x")] demo_ix <> demo_ix /\
  reads (fst (demo_parse 100 "John sleeps" (after_parses scan_m "delta" "gamma" demo_re [(100, "John sleeps"); (3, "x")] demo_ix))) =
  Some ([["sentence"; "name"; "John"; ""; "sleep"; ""]], "", []).
Proof. split; [intros E; apply (f_equal (fun ix => length (find_rules ix "delta" 1))) in E; vm_compute in E; discriminate|vm_compute; reflexivity]. Qed.
Example C66_example :
  reads (fst (demo_parse 100 "John sings" demo_ix)) = Some ([], "unknown_word", ["sings ..."]) /\
  reads (fst (demo_parse 100 "John" demo_ix)) = Some ([], "not_understood", []) /\
  reads (fst (demo_parse 100 "" demo_ix)) = Some ([], "no_sentence", []).
Proof. repeat split; vm_compute; reflexivity. Qed.
(** The hypotheses of C61, C62, C64 hold of this grammar. *)
Example C61_example :
  exists r t, fst (demo_parse 100 "Mary sleeps" demo_ix) = Ok r /\ In t (pr_products r) /\ spell t = "mary sleeps" /\
    lower (spell t) = lower (normalize "Mary sleeps").
Proof.
  destruct (fst (demo_parse 100 "Mary sleeps" demo_ix)) as [r| |] eqn:E; [|exfalso; vm_compute in E; discriminate..].
  destruct (pr_products r) as [|t ts] eqn:Er.
  - exfalso. apply (f_equal (fun o => match o with Ok r => length (pr_products r) | _ => 7 end)) in E. rewrite Er in E. vm_compute in E. discriminate.
  - exists r, t. split; [reflexivity|]. rewrite Er. split; [left; reflexivity|]. split.
    + apply (f_equal (fun o => match o with Ok r => match pr_products r with t :: _ => spell t | _ => "" end | _ => "" end)) in E.
      rewrite Er in E. rewrite <- E. vm_compute. reflexivity.
    + refine (proj2 (C61_trees_are_derivations scan_m "delta" "gamma" demo_re demo [] 100 "Mary sleeps" r t demo_proper demo_re_ok E _)). rewrite Er. left. reflexivity.
Qed.
Example C64_example : forall text, exists N, forall n, N <= n -> exists r, fst (demo_parse n text demo_ix) = Ok r.
Proof.
  intros text. exact (C64_parsing_ends_without_unit_cycles scan_m "delta" "gamma" demo_re demo demo_rank [] text demo_proper demo_re_ok demo_patterns demo_plain demo_acyclic).
Qed.

(** ** C63: empty rules *)

(** [s -> np 'a'] and [np -> 'x'?]: the second rule has an empty variant. *)
Definition empty_demo : list (grule string) := [
  new_rule (rel "s" ["V"]) [rel "np" ["E"]; word "a"] "s" 0;
  new_rule (rel "np" ["E"]) [opt_word "x"] "np" 0
].
Theorem C63_empty_constituents_raise_refuted :
  forall n, 10 <= n -> fst (parser_process scan_m "delta" "gamma" demo_re n "a" (grammar_rules empty_demo)) = Exn RuntimeErr.
Proof.
  intros n Hn. unfold parser_process, earley_parse.
  assert (E : build_chart scan_m "gamma" demo_re n (add_delta_rules "delta" (grammar_rules empty_demo)) (normalize "a") = Exn RuntimeErr).
  { transitivity (build_chart scan_m "gamma" demo_re 10 (add_delta_rules "delta" (grammar_rules empty_demo)) (normalize "a")).
    - apply build_chart_mono; [vm_compute; discriminate|exact Hn].
    - vm_compute. reflexivity. }
  rewrite E. reflexivity.
Qed.
Print Assumptions C63_empty_constituents_raise_refuted.

(** A pattern that does not compile raises an error. *)
Definition broken_demo : list (grule string) := [ new_rule (rel "s" ["V"]) [rgx "(a"] "s" 0 ].
Theorem C63_patterns_must_compile_refuted :
  forall n, 10 <= n -> fst (parser_process scan_m "delta" "gamma" demo_re n "a" (grammar_rules broken_demo)) = Exn (Raise "re.error").
Proof.
  intros n Hn. unfold parser_process, earley_parse.
  assert (E : build_chart scan_m "gamma" demo_re n (add_delta_rules "delta" (grammar_rules broken_demo)) (normalize "a") = Exn (Raise "re.error")).
  { transitivity (build_chart scan_m "gamma" demo_re 10 (add_delta_rules "delta" (grammar_rules broken_demo)) (normalize "a")).
    - apply build_chart_mono; [vm_compute; discriminate|exact Hn].
    - vm_compute. reflexivity. }
  rewrite E. reflexivity.
Qed.
Print Assumptions C63_patterns_must_compile_refuted.

(** ** C64: a unit cycle *)
Definition cyclic_demo : list (grule string) := [
  new_rule (rel "s" ["V"]) [word "a"] "a" 0;
  new_rule (rel "s" ["V"]) [rel "s" ["W"]] "again" 0
].
Definition cyclic_ix : gindex string := add_delta_rules "delta" (grammar_rules cyclic_demo).
Definition cyclic_chart : @chart string :=
  match build_chart scan_m "gamma" demo_re 50 cyclic_ix "a" with Ok ch => ch | _ => empty_chart "" end.
Definition cyclic_state : @cstate string := mkState (new_rule (rel "s" ["V"]) [rel "s" ["W"]] "again" 0) 2 0 1.


Lemma cyclic_sequences :
  find_sequences cyclic_chart cyclic_state 0 1 = Ok [[mkState (new_rule (rel "s" ["V"]) [word "a"] "a" 0) 2 0 1]; [cyclic_state]].
Proof. vm_compute. reflexivity. Qed.
Lemma cyclic_runs n : create_trees n cyclic_chart cyclic_state = OutOfFuel.
Proof.
  induction n as [|n IH]; [reflexivity|]. cbn [create_trees].
  change (is_terminal cyclic_state) with (@Ok bool false). cbn [obind].
  change (length (g_cons (s_rule cyclic_state)) - 1) with 0. change (s_end cyclic_state) with 1. rewrite cyclic_sequences.
  cbn [obind omap]. rewrite IH. cbn [obind].
  set (a := create_trees n cyclic_chart _). assert (Ha : (exists v, a = Ok v) \/ a = OutOfFuel).
  { subst a. clear. destruct n as [|[|n]]; [right; reflexivity|right; vm_compute; reflexivity|left].
    eexists. cbn [create_trees]. vm_compute. reflexivity. }
  destruct Ha as [[v Ha]|Ha]; rewrite Ha; reflexivity.
Qed.
Lemma delta_runs n : create_trees n cyclic_chart (mkState (delta_rule "delta" 1) 2 0 1) = OutOfFuel.
Proof.
  destruct n as [|n]; [reflexivity|]. cbn [create_trees].
  change (is_terminal _) with (@Ok bool false). cbn [obind].
  assert (E : find_sequences cyclic_chart (mkState (delta_rule "delta" 1) 2 0 1) 0 1 =
    Ok [[mkState (new_rule (rel "s" ["V"]) [word "a"] "a" 0) 2 0 1]; [cyclic_state]]) by (vm_compute; reflexivity).
  change (length _ - 1) with 0. change (s_end _) with 1. rewrite E. cbn [obind omap]. rewrite cyclic_runs. cbn [obind].
  set (a := create_trees n cyclic_chart _). assert (Ha : (exists v, a = Ok v) \/ a = OutOfFuel).
  { subst a. clear. destruct n as [|[|n]]; [right; reflexivity|right; vm_compute; reflexivity|left].
    eexists. cbn [create_trees]. vm_compute. reflexivity. }
  destruct Ha as [[v Ha]|Ha]; rewrite Ha; reflexivity.
Qed.
Lemma gamma_runs n : extract_tree_roots "gamma" n cyclic_chart = OutOfFuel.
Proof.
  unfold extract_tree_roots. change (completed_get _ _) with (completed_get 1 (ch_completed cyclic_chart)).
  destruct (completed_get 1 (ch_completed cyclic_chart)) eqn:E; [|vm_compute in E; discriminate].
  change (ch_text cyclic_chart) with "a". destruct n as [|n]; [reflexivity|]. cbn [create_trees].
  change (is_terminal _) with (@Ok bool false). cbn [obind].
  assert (E2 : find_sequences cyclic_chart (complete_gamma "gamma" "a") 0 1 = Ok [[mkState (delta_rule "delta" 1) 2 0 1]]) by (vm_compute; reflexivity).
  change (length _ - 1) with 0. change (s_end _) with 1. rewrite E2. cbn [obind omap]. now rewrite delta_runs.
Qed.
(** However much the interpreter is allowed to recurse, it is not enough. *)
Theorem C64_unit_cycles_recurse_forever_refuted :
  forall n, fst (parser_process scan_m "delta" "gamma" demo_re n "a" (grammar_rules cyclic_demo)) = OutOfFuel.
Proof.
  intros n. unfold parser_process, earley_parse. change (normalize "a") with "a".
  change (add_delta_rules "delta" (grammar_rules cyclic_demo)) with cyclic_ix.
  destruct (build_chart scan_m "gamma" demo_re n cyclic_ix "a") as [ch|e|] eqn:E; [| |reflexivity].
  - assert (ch = cyclic_chart).
    { assert (H50 : build_chart scan_m "gamma" demo_re 50 cyclic_ix "a" = Ok cyclic_chart) by (vm_compute; reflexivity).
      destruct (Nat.le_ge_cases n 50) as [H|H].
      - pose proof (build_chart_mono scan_m "gamma" demo_re n cyclic_ix "a") as HM. rewrite E in HM. specialize (HM ltac:(discriminate) 50 H). congruence.
      - pose proof (build_chart_mono scan_m "gamma" demo_re 50 cyclic_ix "a") as HM. rewrite H50 in HM. specialize (HM ltac:(discriminate) n H). congruence. }
    subst ch. cbn [obind]. rewrite gamma_runs. reflexivity.
  - exfalso. assert (H50 : build_chart scan_m "gamma" demo_re 50 cyclic_ix "a" = Ok cyclic_chart) by (vm_compute; reflexivity).
    destruct (Nat.le_ge_cases n 50) as [H|H].
    + pose proof (build_chart_mono scan_m "gamma" demo_re n cyclic_ix "a") as HM. rewrite E in HM. specialize (HM ltac:(discriminate) 50 H). congruence.
    + pose proof (build_chart_mono scan_m "gamma" demo_re 50 cyclic_ix "a") as HM. rewrite H50 in HM. specialize (HM ltac:(discriminate) n H). congruence.
Qed.
Print Assumptions C64_unit_cycles_recurse_forever_refuted.

(** ** C68 *)
Definition capital_demo : list (grule string) := [ new_rule (rel "s" ["V"]) [word "Mary"] "m" 0 ].
Example C68_example :
  reads (fst (demo_parse 100 "Mary" (grammar_rules capital_demo))) = Some ([], "unknown_word", ["Mary ..."]) /\
  read_word "xMARYx" 1 "mary" = true.
Proof. split; vm_compute; reflexivity. Qed.

(** ** C69: [s -> /ab/ 'b'] reads "ab", with "a" for the expression /ab/ *)
Definition prefix_demo : list (grule string) := [ new_rule (rel "s" ["V"]) [rgx "ab"; word "b"] "m" 0 ].
Theorem C69_a_leaf_need_not_match_refuted :
  reads (fst (demo_parse 100 "ab" (grammar_rules prefix_demo))) = Some ([["m"; "a"; ""]], "", []) /\
  demo_re "ab" "a" = Ok None.
Proof. split; vm_compute; reflexivity. Qed.
Print Assumptions C69_a_leaf_need_not_match_refuted.

(** ** C70 *)
Definition twin_demo : list (grule string) := [
  new_rule (rel "s" ["V"]) [word "bank"] "money" 0;
  new_rule (rel "s" ["V"]) [word "bank"] "river" 5;
  new_rule (rel "s" ["W"]) [word "bank"] "blood" 0
].
(** The second meaning is lost; the third rule has another variable name. *)
Example C70_example :
  reads (fst (demo_parse 100 "bank" (grammar_rules twin_demo))) = Some ([["money"; ""]; ["blood"; ""]], "", []).
Proof. vm_compute. reflexivity. Qed.

(** What tells rules apart, when states of the chart are compared and when the
    writer looks for a rule that is not used yet: the names, variables and
    kinds of the antecedent and of all consequents.  What a rule means, its
    boost, and whether a consequent is optional make no difference. *)
Definition same_writing (a b : constituent) : Prop := k_pred a = k_pred b /\ k_args a = k_args b /\ k_type a = k_type b.
Theorem C70_what_tells_rules_apart :
  forall S T a cs (m : S) boost a' cs' (m' : T) boost',
    g_hash (new_rule a cs m boost) = g_hash (new_rule a' cs' m' boost') <-> same_writing a a' /\ Forall2 same_writing cs cs'.
Proof.
  intros S T a cs m boost a' cs' m' boost'. cbn [new_rule g_hash]. unfold rule_hash.
  assert (HC : forall x y, cons_hash x = cons_hash y <-> same_writing x y).
  { intros x y. unfold cons_hash, same_writing. split; [intros [= -> -> ->]; auto|intros (-> & -> & ->); reflexivity]. }
  split.
  - intros H. apply app_inj_tail in H as [H1 H2]. split; [now apply HC|]. revert cs' H1.
    induction cs as [|c cs IH]; intros [|c' cs'] H; try discriminate; [constructor|].
    cbn [map] in H. injection H as H3 H4 H5 H6. constructor; [split; [|split]; assumption|now apply IH].
  - intros [H1 H2]. f_equal; [|f_equal; now apply HC]. induction H2 as [|c c' cs cs' Hc _ IH]; [reflexivity|].
    cbn [map]. f_equal; [now apply HC|exact IH].
Qed.
Print Assumptions C70_what_tells_rules_apart.

(** ** C72 *)
Example C72_example :
  map g_mean (find_rules demo_ix "np" 1) = ["name"; "mary"] /\ map g_mean (find_rules demo_ix "s" 1) = ["sentence"; "sentence"] /\
  find_rules demo_ix "np" 2 = [].
Proof. repeat split; vm_compute; reflexivity. Qed.
