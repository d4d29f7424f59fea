(** * How the Cooper system solves whether a thing has a quality *)

From Coq Require Import ZArith String Ascii List Bool Arith Lia.
From Verif Require Import Py PyFacts ReprProofs Effects EffectsFacts Solver CoreModule CoreProofs InferenceModule Sql SqliteDataSource DataSpec SqliteProofs2
  SimpleDataSource Memory MemoryProofs Pipeline FragmentModel TalkModel SirProofs4 SirProofs5 CooperModel CooperSpec.
Import ListNotations.
Local Open Scope nat_scope.
Local Open Scope string_scope.
Local Open Scope list_scope.

Definition truth_text (v : bool) : string := if v then "true" else "false".
Definition subject_value (s : subject) : value := match s with Anyone x => VVar x | Just e => VStr e end.
Definition condition (s : subject) (c : string) : value := VTuple [VStr c; subject_value s; VStr "true"].
Definition rule_value (t : taught) : rule :=
  mkRule [VStr (ta_quality t); subject_value (ta_subject t); VStr (truth_text (ta_truth t))]
         (VList (map (condition (ta_subject t)) (ta_conditions t))).
Definition fact_row (f : string * bool) : list value := [VStr (fst f); VStr (truth_text (snd f))].
Definition rules_about (q : string) (rules : list taught) : list taught := filter (fun t => String.eqb (ta_quality t) q) rules.

(** the model [w] has these facts and rules *)
Record knows (w : cooper) (facts : string -> list (string * bool)) (rules : list taught) : Prop := {
  kn_facts : forall q, In q qualities -> db_get q (current (co_db w)) = Some (mkTbl ["entity"; "truth"] [["entity"]] (map fact_row (facts q)));
  kn_rules : forall q, In q qualities -> rules_get q (co_rb w) = (match rules_about q rules with [] => None | l => Some (map rule_value l) end);
  kn_heads : forall r, In r rules -> In (ta_quality r) qualities;
  kn_conditions : forall r c, In r rules -> In c (ta_conditions r) -> In c qualities
}.

Lemma truth_text_inj u v : truth_text u = truth_text v -> u = v.
Proof. destruct u, v; discriminate || reflexivity. Qed.
Lemma truth_eqb u v : String.eqb (truth_text u) (truth_text v) = Bool.eqb u v.
Proof. now destruct u, v. Qed.

Lemma quality_known (w : cooper) q : In q qualities -> find_relations cooper_mods w q =
  quality_relation q :: match rules_get q (co_rb w) with Some _ => [mkRel q [] (handle_rule co_rb_lens) None] | None => [] end.
Proof.
  intros H. unfold find_relations, cooper_mods. cbn [find_relations_in].
  assert (Hc : core_module w q = None) by (unfold qualities in H; repeat (destruct H as [<-|H]; [reflexivity|]); destruct H).
  assert (Hm : cooper_module w q = Some (quality_relation q)) by (unfold qualities in H; repeat (destruct H as [<-|H]; [reflexivity|]); destruct H).
  assert (Ho : output_buffer co_out_lens w q = None) by (unfold qualities in H; repeat (destruct H as [<-|H]; [reflexivity|]); destruct H).
  assert (Hl : String.eqb q "learn_rule" = false) by (unfold qualities in H; repeat (destruct H as [<-|H]; [reflexivity|]); destruct H).
  rewrite Hc, Hm, Ho. unfold inference_module. change (lget co_rb_lens w) with (co_rb w). rewrite Hl.
  now destruct (rules_get q (co_rb w)).
Qed.
Lemma quality_not_or q : In q qualities -> String.eqb q DISJUNCTION = false.
Proof. intros H. unfold qualities in H; repeat (destruct H as [<-|H]; [reflexivity|]); destruct H. Qed.
Lemma quality_sql q : In q qualities -> sql_name q = true.
Proof. intros H. unfold qualities in H; repeat (destruct H as [<-|H]; [reflexivity|]); destruct H. Qed.

(** ** the second argument *)
(** the truth value is asked for ([None]) or given *)
Definition asked (b : binding) (t : value) (o : option bool) : Prop :=
  match o with
  | Some v => t = VStr (truth_text v)
  | None => exists x, t = VVar x /\ bget x b = None
  end.
Definition wanted (o : option bool) (v : bool) : bool := match o with Some u => Bool.eqb u v | None => true end.
(** the first argument stands for [e] *)
Definition stands_for (b : binding) (s : value) (e : string) : Prop := s = VStr e \/ exists x, s = VVar x /\ bget x b = Some (VStr e).

Lemma NoDup_once l : forall acc, NoDup acc -> NoDup (fold_left add_once l acc).
Proof.
  induction l as [|c l IH]; intros acc H; [exact H|]. cbn [fold_left]. apply IH. unfold add_once. destruct (existsb (String.eqb c) acc) eqn:E; [exact H|].
  assert (Hn : ~ In c acc).
  { intros Hi. assert (existsb (String.eqb c) acc = true) by (apply existsb_exists; exists c; split; [exact Hi|apply String.eqb_refl]). congruence. }
  clear -H Hn. induction acc as [|a acc IH]; [repeat constructor; intros []|]. inversion H; subst. cbn [app]. constructor.
  - rewrite in_app_iff. intros [Hi|[<-|[]]]; [contradiction|]. apply Hn. now left.
  - apply IH; [assumption|]. intros Hi. apply Hn. now right.
Qed.
Lemma NoDup_firsts l : NoDup (firsts l).
Proof. apply NoDup_once. constructor. Qed.

Section Facts.
  Variables (w : cooper) (facts : string -> list (string * bool)) (rules : list taught).
  Hypothesis K : knows w facts rules.

  Definition truths_told (o : option bool) (q e : string) : list string :=
    map (fun f => truth_text (snd f)) (filter (fun f => String.eqb (fst f) e && wanted o (snd f)) (facts q)).

  Lemma selected o q e : In q qualities ->
    co_select q ["entity"; "truth"] [VStr e; match o with Some v => VStr (truth_text v) | None => VNone end] w =
    (Ok (map (fun v => [VStr e; VStr v]) (truths_told o q e)), w).
  Proof.
    intros Hq. unfold co_select. erewrite on_conn_run.
    2:{ change (lget co_db_lens w) with (co_db w).
        apply (sq_select_run q (mkTbl ["entity"; "truth"] [["entity"]] (map fact_row (facts q))) ["entity"; "truth"] _) with
          (gs := map (fun f => mkGiven ["entity"; "truth"] [VStr (fst f); VStr (truth_text (snd f))]) (facts q)).
        - constructor; try reflexivity; try discriminate.
          + now apply quality_sql.
          + intros c [<-|[<-|[]]]; reflexivity.
          + apply incl_refl.
          + destruct o; reflexivity.
        - exact (kn_facts _ _ _ K q Hq).
        - rewrite map_map. reflexivity. }
    f_equal.
    - f_equal. unfold spec_select, truths_told. clear K. induction (facts q) as [|(u & v) fs IH]; [reflexivity|].
      cbn [map filter fst snd].
      match goal with |- context [fits ?a ?b ?c] => assert (E : fits a b c = (String.eqb u e && wanted o v)%bool) end.
      { unfold fits, field. destruct o as [v'|]; cbn [forall2b at_column g_cols g_vals is_none orb wanted].
        - change (String.eqb "entity" "entity") with true. change (String.eqb "truth" "entity") with false. change (String.eqb "truth" "truth") with true. cbv iota.
          cbn [py_eq]. rewrite andb_true_r. change (py_eq (VStr u) (VStr e)) with (String.eqb u e). f_equal.
          change (py_eq (VStr (truth_text v)) (VStr (truth_text v'))) with (String.eqb (truth_text v) (truth_text v')). rewrite truth_eqb. now destruct v, v'.
        - change (String.eqb "entity" "entity") with true. cbv iota. reflexivity. }
      rewrite E. destruct (String.eqb_spec u e) as [->|N]; [|exact IH]. cbn [andb]. destruct (wanted o v); [|exact IH].
      cbn [map]. f_equal. exact IH.
    - change (lset co_db_lens) with (lset co_db_lens). destruct w as [[c d] rb out]. reflexivity.
  Qed.

  (** ** one rule *)
  Notation follows := (follows facts rules).
  Definition rule_fires (o : option bool) (e : string) (r : taught) : Prop :=
    about (ta_subject r) e /\ wanted o (ta_truth r) = true /\ forall c, In c (ta_conditions r) -> follows e c true.

  Lemma own_binding r (b : binding) vars x : rule_variables (rule_value r) = Some vars -> ta_subject r = Anyone x ->
    bget x (filter (fun kv => negb (existsb (String.eqb (fst kv)) vars)) b) = None.
  Proof.
    intros Hv Hs. assert (Hx : In x vars).
    { unfold rule_variables, rule_value in Hv. cbn [ru_body ru_head elements] in Hv. rewrite Hs in Hv. injection Hv as <-. now left. }
    induction b as [|(k & v) b IH]; [reflexivity|]. cbn [filter fst]. destruct (existsb (String.eqb k) vars) eqn:E; cbn [negb]; [exact IH|].
    cbn [bget]. destruct (String.eqb_spec x k) as [->|N]; [|exact IH].
    assert (existsb (String.eqb k) vars = true) by (apply existsb_exists; exists k; split; [exact Hx|apply String.eqb_refl]). congruence.
  Qed.

  Lemma rule_solved sv r e o s t b :
    (forall rb, stands_for rb (subject_value (ta_subject r)) e -> ta_conditions r <> [] -> exists d : bool,
      sv_solve sv (VList (map (condition (ta_subject r)) (ta_conditions r))) rb w = (Ok (SList (if d then [rb] else [])), w) /\
      (d = true <-> forall c, In c (ta_conditions r) -> follows e c true)) ->
    stands_for b s e -> asked b t o -> exists d : bool,
      solve_rule sv (rule_value r) [s; t] b w = (Ok (if d then [[VStr e; VStr (truth_text (ta_truth r))]] else []), w) /\ (d = true <-> rule_fires o e r).
  Proof.
    intros Hb Hs Ht. unfold solve_rule.
    destruct (rule_variables (rule_value r)) as [vars|] eqn:Hv; [|discriminate].
    assert (Ev : (match b with [] => ret [] | _ :: _ => or_throw TypeErr (Some vars) end) w = (Ok (match b with [] => [] | _ => vars end), w)) by (now destruct b).
    unfold bind at 1. rewrite Ev. clear Ev.
    replace (filter (fun kv : string * value => negb (existsb (String.eqb (fst kv)) match b with [] => [] | _ :: _ => vars end)) b)
      with (filter (fun kv : string * value => negb (existsb (String.eqb (fst kv)) vars)) b) by (now destruct b).
    set (rb0 := filter (fun kv : string * value => negb (existsb (String.eqb (fst kv)) vars)) b).
    assert (E0 : forall x, ta_subject r = Anyone x -> bget x rb0 = None) by (intros x; now apply own_binding). clearbody rb0. clear Hv vars.
    cbn [rule_value ru_head ru_body tl].
    assert (Es : bound_value b s = VStr e) by (destruct Hs as [->|(x & -> & Hx)]; cbn [bound_value]; [reflexivity|now rewrite Hx]).
    assert (Et : bind_head b [VStr (truth_text (ta_truth r))] [t] = fun rb => if wanted o (ta_truth r) then Some rb else None).
    { destruct o as [v|]; cbn [asked wanted] in *.
      - subst t. cbn [bind_head bound_value]. change (py_eq (VStr (truth_text v)) (VStr (truth_text (ta_truth r)))) with (String.eqb (truth_text v) (truth_text (ta_truth r))).
        rewrite truth_eqb. reflexivity.
      - destruct Ht as (x & -> & Hx). cbn [bind_head bound_value]. now rewrite Hx. }
    assert (Eh : bind_head b [subject_value (ta_subject r); VStr (truth_text (ta_truth r))] [s; t] rb0 =
      match ta_subject r with
      | Anyone x => if wanted o (ta_truth r) then Some (bset x (VStr e) rb0) else None
      | Just i => if String.eqb e i then if wanted o (ta_truth r) then Some rb0 else None else None
      end).
    { destruct (ta_subject r) as [x|i] eqn:Ex; cbn [subject_value].
      - change (bind_head b [VVar x; VStr (truth_text (ta_truth r))] [s; t] rb0) with
          (match bound_value b s with VVar _ => bind_head b [VStr (truth_text (ta_truth r))] [t] rb0
           | _ => match bget x rb0 with Some old => if py_eq old (bound_value b s) then bind_head b [VStr (truth_text (ta_truth r))] [t] (bset x (bound_value b s) rb0) else None
                  | None => bind_head b [VStr (truth_text (ta_truth r))] [t] (bset x (bound_value b s) rb0) end end).
        rewrite Es, Et, E0 by reflexivity. reflexivity.
      - change (bind_head b [VStr i; VStr (truth_text (ta_truth r))] [s; t] rb0) with
          (match bound_value b s with VVar _ => bind_head b [VStr (truth_text (ta_truth r))] [t] rb0
           | _ => if py_eq (bound_value b s) (VStr i) then bind_head b [VStr (truth_text (ta_truth r))] [t] rb0 else None end).
        rewrite Es, Et. reflexivity. }
    rewrite Eh. clear Eh Et Es.
    assert (Hn : match ta_subject r with Just i => String.eqb e i = false | Anyone _ => False end \/ wanted o (ta_truth r) = false ->
      exists d : bool, (Ok [], w) = (Ok (if d then [[VStr e; VStr (truth_text (ta_truth r))]] else []), w) /\ (d = true <-> rule_fires o e r)).
    { intros H. exists false. split; [reflexivity|]. split; [discriminate|]. intros (Ha & Hw & _). destruct H as [H|H]; [|congruence].
      unfold about in Ha. destruct (ta_subject r); [destruct H|]. subst. now rewrite String.eqb_refl in H. }
    assert (Hgo : forall rb, about (ta_subject r) e -> wanted o (ta_truth r) = true -> stands_for rb (subject_value (ta_subject r)) e -> exists d : bool,
      bind (or_throw TypeErr (elements (VList (map (condition (ta_subject r)) (ta_conditions r)))))
        (fun body => bind (match body with [] => ret [rb] | _ :: _ => bind (sv_solve sv (VList (map (condition (ta_subject r)) (ta_conditions r))) rb) sres_items end)
          (fun bindings => match head_rows bindings [subject_value (ta_subject r); VStr (truth_text (ta_truth r))] [s; t] with None => ret [] | Some rs => ret rs end)) w
      = (Ok (if d then [[VStr e; VStr (truth_text (ta_truth r))]] else []), w) /\ (d = true <-> rule_fires o e r)).
    { intros rb Ha Hw Hrb.
      assert (Er : head_rows [rb] [subject_value (ta_subject r); VStr (truth_text (ta_truth r))] [s; t] = Some [[VStr e; VStr (truth_text (ta_truth r))]]).
      { cbn [head_rows head_row].
        assert (E1 : match s with VVar _ => match subject_value (ta_subject r) with VVar x => bget x rb | _ => Some (subject_value (ta_subject r)) end | _ => Some s end = Some (VStr e)).
        { destruct Hs as [->|(x & -> & Hx)]; [reflexivity|]. destruct Hrb as [E|(y & E & Hy)]; rewrite E; [reflexivity|exact Hy]. }
        rewrite E1. destruct o as [v|]; cbn [asked wanted] in *.
        - subst t. apply eqb_prop in Hw as ->. reflexivity.
        - destruct Ht as (x & -> & Hx). reflexivity. }
      unfold bind at 1. cbn [elements or_throw ret].
      destruct (ta_conditions r) as [|c0 cs] eqn:Ec.
      - cbn [map]. unfold bind at 1. cbn [ret]. exists true. rewrite Er. split; [reflexivity|]. split; [intros _|reflexivity].
        split; [exact Ha|split; [exact Hw|]]. rewrite Ec. intros c [].
      - destruct (Hb rb Hrb ltac:(discriminate)) as (d & Eb & Hd). cbn [map] in *. unfold bind at 1 2. rewrite Eb. cbn [sres_items ret]. exists d. split.
        + destruct d; [rewrite Er|]; reflexivity.
        + rewrite Hd. unfold rule_fires. rewrite Ec. tauto. }
    destruct (ta_subject r) as [x|i] eqn:Ex.
    - destruct (wanted o (ta_truth r)) eqn:Hw; [|apply Hn; now right]. apply Hgo; [exact I|reflexivity|]. right. exists x. split; [reflexivity|].
      apply bget_bset_same.
    - destruct (String.eqb_spec e i) as [<-|N]; [|apply Hn; now left].
      destruct (wanted o (ta_truth r)) eqn:Hw; [|apply Hn; now right]. apply Hgo; [reflexivity|reflexivity|now left].
  Qed.

  (** ** the rules for a quality *)
  Lemma rules_solved sv e o s t b rs : (forall r, In r rs -> exists d : bool,
      solve_rule sv (rule_value r) [s; t] b w = (Ok (if d then [[VStr e; VStr (truth_text (ta_truth r))]] else []), w) /\ (d = true <-> rule_fires o e r)) ->
    forall acc, exists l,
    foldM (fun acc r => bind (solve_rule sv r [s; t] b) (fun x => ret (acc ++ x))) acc (map rule_value rs) w = (Ok (acc ++ map (fun v => [VStr e; VStr (truth_text v)]) l), w) /\
    forall v, In v l <-> exists r, In r rs /\ rule_fires o e r /\ ta_truth r = v.
  Proof.
    induction rs as [|r rs IH]; intros H acc.
    - exists []. cbn [map foldM]. rewrite app_nil_r. split; [reflexivity|]. intros v. split; [intros []|intros (r & [] & _)].
    - destruct (H r (or_introl eq_refl)) as (d & E & Hd). cbn [map foldM]. unfold bind at 1 2. rewrite E. cbn [ret].
      destruct (IH (fun r' Hr => H r' (or_intror Hr)) (acc ++ (if d then [[VStr e; VStr (truth_text (ta_truth r))]] else []))) as (l & El & Hl).
      exists ((if d then [ta_truth r] else []) ++ l). split.
      + rewrite El. rewrite map_app, app_assoc. do 3 f_equal. now destruct d.
      + intros v. rewrite in_app_iff, Hl. split.
        * intros [Hv|(r' & Hr & Hf & Hv)]; [|exists r'; split; [now right|auto]].
          destruct d; [|destruct Hv]. destruct Hv as [<-|[]]. exists r. split; [now left|]. split; [now apply Hd|reflexivity].
        * intros (r' & [<-|Hr] & Hf & Hv); [left; apply Hd in Hf as ->; now left|right; exists r'; auto].
  Qed.

  Variable rank : string -> bool -> nat.
  Hypothesis Hrank : well_founded_rules rules rank.

  Definition truths_found (o : option bool) (q e : string) : list string := match truths_told o q e with [] => ["unknown"] | l => l end.

  (** how a question about a quality is solved when the conditions can be *)
  Lemma quality_solved n q e o s t b : In q qualities -> stands_for b s e -> asked b t o ->
    (forall r rb, In r rules -> ta_quality r = q -> wanted o (ta_truth r) = true -> stands_for rb (subject_value (ta_subject r)) e -> ta_conditions r <> [] -> exists d : bool,
      solve cooper_mods n (VList (map (condition (ta_subject r)) (ta_conditions r))) rb w = (Ok (SList (if d then [rb] else [])), w) /\
      (d = true <-> forall c, In c (ta_conditions r) -> follows e c true)) ->
    exists l,
    solve cooper_mods (S n) (VList [VTuple [VStr q; s; t]]) b w =
      finish [s; t] b (QRows (map (fun v => VList [VStr e; VStr v]) (truths_found o q e ++ map truth_text l))) w /\
    forall v, In (truth_text v) (truths_told o q e) \/ In v l <-> wanted o v = true /\ follows e q v.
  Proof.
    intros Hq Hs Ht Hc.
    assert (Hr : forall r, In r (rules_about q rules) -> exists d : bool,
      solve_rule (solver_at cooper_mods n) (rule_value r) [s; t] b w = (Ok (if d then [[VStr e; VStr (truth_text (ta_truth r))]] else []), w) /\ (d = true <-> rule_fires o e r)).
    { intros r Hr. apply filter_In in Hr as (Hr & Eq). apply String.eqb_eq in Eq.
      destruct (wanted o (ta_truth r)) eqn:Hw.
      - apply rule_solved; [|assumption|assumption]. intros rb Hrb Hne. exact (Hc r rb Hr Eq Hw Hrb Hne).
      - exists false. split; [|split; [discriminate|intros (_ & Hw' & _); congruence]].
        unfold solve_rule.
        destruct (rule_variables (rule_value r)) as [vars|] eqn:Hv; [|discriminate].
        assert (Ev : (match b with [] => ret [] | _ :: _ => or_throw TypeErr (Some vars) end) w = (Ok (match b with [] => [] | _ => vars end), w)) by (now destruct b).
        unfold bind at 1. rewrite Ev. clear Ev. cbn [rule_value ru_head tl].
        match goal with |- context [bind_head b ?h ?a ?f] => assert (Eh : bind_head b h a f = None) end; [|now rewrite Eh].
        destruct o as [v|]; [|discriminate]. cbn [asked wanted] in *. subst t.
        assert (Et : forall rb, bind_head b [VStr (truth_text (ta_truth r))] [VStr (truth_text v)] rb = None).
        { intros rb. cbn [bind_head bound_value]. change (py_eq (VStr (truth_text v)) (VStr (truth_text (ta_truth r)))) with (String.eqb (truth_text v) (truth_text (ta_truth r))).
          now rewrite truth_eqb, Hw. }
        match goal with |- bind_head b (?h :: ?hs) (?a :: ?l) ?f = None =>
          change (bind_head b (h :: hs) (a :: l) f) with
            (match h with
             | VVar x => match bound_value b a with VVar _ => bind_head b hs l f | _ => match bget x f with Some old => if py_eq old (bound_value b a) then bind_head b hs l (bset x (bound_value b a) f) else None | None => bind_head b hs l (bset x (bound_value b a) f) end end
             | _ => match bound_value b a with VVar _ => bind_head b hs l f | _ => if py_eq (bound_value b a) h then bind_head b hs l f else None end end) end.
        destruct (ta_subject r); cbn [subject_value]; rewrite !Et; destruct (bound_value b s); try reflexivity;
          repeat match goal with |- context [bget ?x ?f] => destruct (bget x f) end; repeat match goal with |- context [if ?c then _ else _] => destruct c end; rewrite ?Et; reflexivity. }
    destruct (rules_solved (solver_at cooper_mods n) e o s t b _ Hr []) as (l & El & Hl). exists l. split.
    - unfold solve. cbn [solver_at sv_solve]. unfold solve_F. cbn [solve_atoms]. unfold solve_single. unfold bind at 1. cbn [atom_parts ret].
      rewrite (quality_not_or q Hq). unfold solve_relation, find_relation_values. unfold bind at 1 2. cbn [get].
      rewrite (quality_known w q Hq). cbv zeta iota.
      set (rest := match rules_get q (co_rb w) with Some _ => [mkRel q [] (handle_rule co_rb_lens) None] | None => [] end).
      cbn [collect_rows]. unfold bind at 1. cbn [quality_relation r_query r_pred r_cols]. unfold quality_query. cbn [c_pred c_cols].
      assert (Ed : db_values b [s; t] = [VStr e; match o with Some v => VStr (truth_text v) | None => VNone end]).
      { unfold db_values. cbn [map]. f_equal; [destruct Hs as [->|(x & -> & Hx)]; cbn [db_value]; [reflexivity|now rewrite Hx]|].
        f_equal. destruct o as [v|]; cbn [asked] in Ht; [now subst t|]. destruct Ht as (x & -> & Hx). cbn [db_value]. now rewrite Hx. }
      rewrite Ed. unfold bind at 1. rewrite (selected o q e Hq).
      assert (Eq : (match map (fun v => [VStr e; VStr v]) (truths_told o q e) with [] => rows [removelast [VStr e; match o with Some v => VStr (truth_text v) | None => VNone end] ++ [VStr "unknown"]] | _ :: _ => rows (map (fun v => [VStr e; VStr v]) (truths_told o q e)) end) w
        = (Ok (QRows (map (fun v => VList [VStr e; VStr v]) (truths_found o q e))), w)).
      { unfold truths_found. destruct (truths_told o q e) as [|v0 vs]; [reflexivity|]. cbn [map]. unfold rows. cbn [map ret]. now rewrite map_map. }
      rewrite Eq. clear Eq.
      unfold finish. rewrite map_app, fold_left_app.
      assert (Erest : collect_rows (solver_at cooper_mods n) (Nat.ltb 1 (length (quality_relation q :: rest))) rest [VStr e; match o with Some v => VStr (truth_text v) | None => VNone end] [s; t] b
          (fold_left add_row (map (fun v => VList [VStr e; VStr v]) (truths_found o q e)) []) w =
        (Ok (QRows (fold_left add_row (map (fun v => VList [VStr e; VStr v]) (map truth_text l)) (fold_left add_row (map (fun v => VList [VStr e; VStr v]) (truths_found o q e)) []))), w)).
      { subst rest. pose proof (kn_rules _ _ _ K q Hq) as Eg.
        destruct (rules_about q rules) as [|r0 rs0] eqn:Er.
        - rewrite Eg. cbn [map foldM] in El. injection El as El. destruct l; [|discriminate]. reflexivity.
        - set (many := Nat.ltb 1 _). clearbody many. rewrite Eg. cbn [collect_rows]. unfold bind at 1. cbn [r_query r_pred r_cols]. unfold handle_rule. unfold bind at 1. cbn [get c_pred c_args c_binding].
          change (lget co_rb_lens w) with (co_rb w). rewrite Eg. unfold bind at 1. rewrite El. cbn [ret app].
          rewrite !map_map. reflexivity. }
      rewrite Erest. reflexivity.
    - intros v. rewrite Hl. split.
      + intros [H|(r & Hr1 & (Ha & Hw & Hcs) & <-)].
        * unfold truths_told in H. apply in_map_iff in H as ((u & v') & E & H). apply truth_text_inj in E. cbn [snd] in E. subst v'.
          apply filter_In in H as (H & E). cbn [fst snd] in E. apply andb_prop in E as (E & Hw). apply String.eqb_eq in E as ->. split; [exact Hw|]. now apply told.
        * split; [exact Hw|]. apply filter_In in Hr1 as (Hr1 & E). apply String.eqb_eq in E as <-. now apply concluded.
      + intros (Hw & Hf). inversion Hf as [q' v' Hin|r Hr1 Ha Hcs].
        * subst. left. apply in_map_iff. exists (e, v). split; [reflexivity|]. apply filter_In. split; [exact Hin|]. cbn [fst snd]. now rewrite String.eqb_refl.
        * subst. right. exists r. split; [apply filter_In; split; [exact Hr1|apply String.eqb_refl]|]. split; [|reflexivity]. now split.
  Qed.

  (** ** the rows that come out *)
  Lemma finish_given e v l s b : stands_for b s e ->
    finish [s; VStr (truth_text v)] b (QRows (map (fun u => VList [VStr e; VStr u]) l)) w =
    (Ok (SList (if existsb (String.eqb (truth_text v)) l then [b] else [])), w).
  Proof.
    intros Hs. unfold finish. pose proof (rows_once e l []) as E. cbn [map] in E. rewrite E. clear E. fold (firsts l).
    assert (Ec : check_first_row (map (fun c => VList [VStr e; VStr c]) (firsts l)) [s; VStr (truth_text v)] w = (Ok tt, w)) by (now destruct (firsts l)).
    unfold bind at 1. rewrite Ec. unfold create_results.
    assert (Em : forall u, match_args (VList [VStr e; VStr u]) b 0 [s; VStr (truth_text v)] b false w = (Ok (b, negb (String.eqb (truth_text v) u)), w)).
    { intros u. destruct Hs as [->|(x & -> & Hx)].
      - cbn [match_args]. unfold bind. cbn [subscript nth_error ret is_none negb andb orb].
        change (py_eq (VStr e) (VStr e)) with (String.eqb e e). rewrite String.eqb_refl. reflexivity.
      - cbn [match_args]. rewrite Hx. unfold bind. cbn [subscript nth_error ret is_none negb andb orb]. reflexivity. }
    assert (Ef : forall l acc, foldM (fun results v0 => bind (match_args v0 b 0 [s; VStr (truth_text v)] b false)
        (fun rc => let '(result, conflict) := rc in if conflict then ret results else ret (results ++ [result]))) acc (map (fun c => VList [VStr e; VStr c]) l) w =
      (Ok (acc ++ map (fun _ => b) (filter (String.eqb (truth_text v)) l)), w)).
    { clear Ec. induction l0 as [|c l0 IH]; intros acc; [cbn; now rewrite app_nil_r|]. cbn [map foldM]. unfold bind at 1 2. rewrite Em. cbn [filter].
      destruct (String.eqb (truth_text v) c); cbn [negb ret]; rewrite IH; [|reflexivity]. cbn [map]. now rewrite <- app_assoc. }
    unfold bind at 1. rewrite Ef. cbn [app ret]. do 3 f_equal.
    assert (En : NoDup (firsts l)) by apply NoDup_firsts.
    assert (Ei : existsb (String.eqb (truth_text v)) l = existsb (String.eqb (truth_text v)) (firsts l)).
    { apply eq_iff_eq_true. rewrite !existsb_exists. split; intros (x & Hx & Ex); exists x; (split; [now apply In_firsts|exact Ex]). }
    rewrite Ei. clear Ei Ef Ec. induction (firsts l) as [|c l0 IH]; [reflexivity|]. inversion En as [|? ? Hni Hnd]; subst. cbn [filter existsb].
    destruct (String.eqb_spec (truth_text v) c) as [<-|N]; cbn [orb]; [|now apply IH]. cbn [map]. f_equal.
    assert (Hnil : filter (String.eqb (truth_text v)) l0 = []); [|now rewrite Hnil].
    clear -Hni. induction l0 as [|c l0 IH]; [reflexivity|]. cbn [filter]. destruct (String.eqb_spec (truth_text v) c) as [<-|N]; [destruct Hni; now left|].
    apply IH. intros H. apply Hni. now right.
  Qed.
  Lemma finish_asked e x l s b : stands_for b s e -> bget x b = None ->
    finish [s; VVar x] b (QRows (map (fun u => VList [VStr e; VStr u]) l)) w =
    (Ok (SList (map (fun u => bset x (VStr u) b) (firsts l))), w).
  Proof.
    intros Hs Hx. unfold finish. pose proof (rows_once e l []) as E. cbn [map] in E. rewrite E. clear E. fold (firsts l).
    assert (Ec : check_first_row (map (fun c => VList [VStr e; VStr c]) (firsts l)) [s; VVar x] w = (Ok tt, w)) by (now destruct (firsts l)).
    unfold bind at 1. rewrite Ec. unfold create_results.
    assert (Em : forall u, match_args (VList [VStr e; VStr u]) b 0 [s; VVar x] b false w = (Ok (bset x (VStr u) b, false), w)).
    { intros u. destruct Hs as [->|(y & -> & Hy)].
      - cbn [match_args]. unfold bind. cbn [subscript nth_error ret is_none negb andb orb].
        change (py_eq (VStr e) (VStr e)) with (String.eqb e e). rewrite String.eqb_refl, Hx. reflexivity.
      - cbn [match_args]. rewrite Hy, Hx. unfold bind. cbn [subscript nth_error ret is_none negb andb orb]. reflexivity. }
    assert (Ef : forall l acc, foldM (fun results v0 => bind (match_args v0 b 0 [s; VVar x] b false)
        (fun rc => let '(result, conflict) := rc in if conflict then ret results else ret (results ++ [result]))) acc (map (fun c => VList [VStr e; VStr c]) l) w =
      (Ok (acc ++ map (fun u => bset x (VStr u) b) l), w)).
    { clear Ec. induction l0 as [|c l0 IH]; intros acc; [cbn; now rewrite app_nil_r|]. cbn [map foldM]. unfold bind at 1 2. rewrite Em. cbn [ret]. rewrite IH. now rewrite <- app_assoc. }
    unfold bind at 1. rewrite Ef. reflexivity.
  Qed.

  (** a conjunction of atoms that leave the binding as it is *)
  Lemma all_solved n (atoms : list value) b (P : value -> Prop) : atoms <> [] -> n <> 0 ->
    (forall a, In a atoms -> exists d : bool, solve cooper_mods n (VList [a]) b w = (Ok (SList (if d then [b] else [])), w) /\ (d = true <-> P a)) ->
    exists d : bool, solve cooper_mods n (VList atoms) b w = (Ok (SList (if d then [b] else [])), w) /\ (d = true <-> forall a, In a atoms -> P a).
  Proof.
    intros Hne Hn. destruct n as [|n]; [contradiction|]. clear Hn. induction atoms as [|a atoms IH]; [contradiction|]. intros H.
    destruct (H a (or_introl eq_refl)) as (d & E & Hd).
    destruct atoms as [|a' atoms].
    { exists d. split; [exact E|]. rewrite Hd. split; [intros Hp x [<-|[]]; exact Hp|intros Hp; apply Hp; now left]. }
    destruct (IH ltac:(discriminate) (fun x Hx => H x (or_intror Hx))) as (d' & E' & Hd').
    exists (d && d')%bool. split.
    - unfold solve in *. cbn [solver_at sv_solve] in *. unfold solve_F in *.
      change (solve_atoms cooper_mods (solver_at cooper_mods n) (a :: a' :: atoms) b) with
        (bind (solve_single cooper_mods (solver_at cooper_mods n) a b) (fun r => bind (sres_items r) (fun bs => bind (foldM (fun acc b' =>
           bind (solve_atoms cooper_mods (solver_at cooper_mods n) (a' :: atoms) b') (fun rr => bind (sres_items rr) (fun rs => ret (fold_left add_binding rs acc)))) [] bs)
           (fun result => ret (SList result))))).
      change (solve_atoms cooper_mods (solver_at cooper_mods n) [a] b) with (solve_single cooper_mods (solver_at cooper_mods n) a b) in E.
      unfold bind at 1. rewrite E. unfold bind at 1. destruct d; cbn [sres_items ret andb]; [|reflexivity].
      cbn [foldM]. unfold bind at 1 2 3. rewrite E'. unfold bind. cbn [sres_items ret]. destruct d'; reflexivity.
    - rewrite andb_true_iff, Hd, Hd'. split.
      + intros (H1 & H2) x [<-|Hx]; [exact H1|now apply H2].
      + intros Hp. split; [apply Hp; now left|intros x Hx; apply Hp; now right].
  Qed.

  Lemma found_same o q e l u : In u (truths_found o q e ++ map truth_text l) -> In u ["true"; "false"; "unknown"].
  Proof.
    intros H. apply in_app_or in H as [H|H].
    - unfold truths_found in H. destruct (truths_told o q e) eqn:E; [destruct H as [<-|[]]; cbn; auto|]. rewrite <- E in H. unfold truths_told in H.
      apply in_map_iff in H as (f & <- & _). destruct (snd f); cbn; auto.
    - apply in_map_iff in H as (v & <- & _). destruct v; cbn; auto.
  Qed.
  Lemma found_told o q e l v : In (truth_text v) (truths_found o q e ++ map truth_text l) <-> In (truth_text v) (truths_told o q e) \/ In v l.
  Proof.
    rewrite in_app_iff. assert (E : In (truth_text v) (truths_found o q e) <-> In (truth_text v) (truths_told o q e)).
    { unfold truths_found. destruct (truths_told o q e); [|reflexivity]. split; [|intros []]. intros [H|[]]. now destruct v. }
    rewrite E. assert (E2 : In (truth_text v) (map truth_text l) <-> In v l); [|tauto].
    rewrite in_map_iff. split; [intros (u & H & Hu); now apply truth_text_inj in H as <-|intros H; now exists v].
  Qed.

  (** ** a quality with a given truth value *)
  Theorem quality_given n : forall q e v s b, In q qualities -> rank q v < n -> stands_for b s e -> exists d : bool,
    solve cooper_mods n (VList [VTuple [VStr q; s; VStr (truth_text v)]]) b w = (Ok (SList (if d then [b] else [])), w) /\ (d = true <-> follows e q v).
  Proof.
    induction n as [|n IH]; intros q e v s b Hq Hr Hs; [lia|].
    destruct (quality_solved n q e (Some v) s (VStr (truth_text v)) b Hq Hs eq_refl) as (l & E & Hl).
    { intros r rb Hin Eq Hw Hrb Hne. cbn [wanted] in Hw. apply eqb_prop in Hw. subst v q.
      assert (Hn : n <> 0). { destruct (ta_conditions r) as [|c cs] eqn:Ec; [contradiction|]. specialize (Hrank r c Hin). rewrite Ec in Hrank. specialize (Hrank (or_introl eq_refl)). lia. }
      destruct (all_solved n (map (condition (ta_subject r)) (ta_conditions r)) rb (fun a => exists c, a = condition (ta_subject r) c /\ follows e c true)) as (d & E & Hd).
      - now destruct (ta_conditions r).
      - exact Hn.
      - intros a Ha. apply in_map_iff in Ha as (c & <- & Hc).
        destruct (IH c e true (subject_value (ta_subject r)) rb) as (d & E & Hd).
        + exact (kn_conditions _ _ _ K r c Hin Hc).
        + specialize (Hrank r c Hin Hc). lia.
        + exact Hrb.
        + exists d. split; [exact E|]. rewrite Hd. split; [intros H; now exists c|]. intros (c' & Ec & H). unfold condition in Ec. injection Ec as ->. exact H.
      - exists d. split; [exact E|]. rewrite Hd. split.
        + intros H c Hc. destruct (H (condition (ta_subject r) c) (in_map _ _ _ Hc)) as (c' & Ec & Hf). unfold condition in Ec. injection Ec as ->. exact Hf.
        + intros H a Ha. apply in_map_iff in Ha as (c & <- & Hc). exists c. auto. }
    exists (existsb (String.eqb (truth_text v)) (truths_found (Some v) q e ++ map truth_text l)). split.
    - rewrite E. now apply finish_given.
    - rewrite existsb_exists. transitivity (In (truth_text v) (truths_found (Some v) q e ++ map truth_text l)).
      + split; [intros (x & Hx & Ex); apply String.eqb_eq in Ex as ->; exact Hx|intros H; exists (truth_text v); split; [exact H|apply String.eqb_refl]].
      + rewrite found_told, Hl. cbn [wanted]. rewrite eqb_reflx. tauto.
  Qed.

  (** ** a quality whose truth value is asked *)
  Theorem quality_asked n q e x s b : In q qualities -> rank q true < n -> rank q false < n -> stands_for b s e -> bget x b = None -> exists l,
    solve cooper_mods n (VList [VTuple [VStr q; s; VVar x]]) b w = (Ok (SList (map (fun u => bset x (VStr u) b) l)), w) /\ l <> [] /\ NoDup l /\
    (forall u, In u l -> In u ["true"; "false"; "unknown"]) /\
    (forall v, In (truth_text v) l <-> follows e q v).
  Proof.
    intros Hq Ht Hf Hs Hx. destruct n as [|n]; [lia|].
    destruct (quality_solved n q e None s (VVar x) b Hq Hs) as (l & E & Hl).
    { exists x. auto. }
    { intros r rb Hin Eq _ Hrb Hne. subst q.
      assert (Hlt : forall c, In c (ta_conditions r) -> rank c true < n). { intros c Hc. specialize (Hrank r c Hin Hc). destruct (ta_truth r); lia. }
      assert (Hn : n <> 0). { destruct (ta_conditions r) as [|c cs] eqn:Ec; [contradiction|]. specialize (Hlt c (or_introl eq_refl)). lia. }
      destruct (all_solved n (map (condition (ta_subject r)) (ta_conditions r)) rb (fun a => exists c, a = condition (ta_subject r) c /\ follows e c true)) as (d & E & Hd).
      - now destruct (ta_conditions r).
      - exact Hn.
      - intros a Ha. apply in_map_iff in Ha as (c & <- & Hc).
        destruct (quality_given n c e true (subject_value (ta_subject r)) rb) as (d & E & Hd).
        + exact (kn_conditions _ _ _ K r c Hin Hc).
        + now apply Hlt.
        + exact Hrb.
        + exists d. split; [exact E|]. rewrite Hd. split; [intros H; now exists c|]. intros (c' & Ec & H). unfold condition in Ec. injection Ec as ->. exact H.
      - exists d. split; [exact E|]. rewrite Hd. split.
        + intros H c Hc. destruct (H (condition (ta_subject r) c) (in_map _ _ _ Hc)) as (c' & Ec & Hfo). unfold condition in Ec. injection Ec as ->. exact Hfo.
        + intros H a Ha. apply in_map_iff in Ha as (c & <- & Hc). exists c. auto. }
    exists (firsts (truths_found None q e ++ map truth_text l)). split; [rewrite E; now apply finish_asked|]. split.
    - intros H. assert (Hi : forall u, In u (truths_found None q e) -> False).
      { intros u Hu. assert (In u (firsts (truths_found None q e ++ map truth_text l))) by (apply In_firsts, in_app_iff; now left). now rewrite H in H0. }
      unfold truths_found in Hi. destruct (truths_told None q e) as [|u us]; [apply (Hi "unknown")|apply (Hi u)]; now left.
    - split; [apply NoDup_firsts|]. split.
      + intros u Hu. rewrite In_firsts in Hu. eapply found_same. exact Hu.
      + intros v. rewrite In_firsts, found_told, Hl. cbn [wanted]. tauto.
  Qed.
End Facts.
