(** * Property C44: first-order queries and rules *)

From Coq Require Import ZArith String List Bool Lia Arith.
From Verif Require Import Py PyFacts ReprProofs Effects EffectsFacts Solver SolverSpec
  SolverProofs SolverProofs2 MatchProofs CoreModule InferenceModule TableModule
  DatalogSpec DatalogProofs DatalogProofs2 FolSpec FolProofs FolProofs2 FolProofs3 FolProofs4 FolProofs5
  ExampleWorld PropDatalog.
Import ListNotations.
Local Open Scope nat_scope.
Local Open Scope string_scope.
Local Open Scope list_scope.

(** the query as the user writes it *)
Definition query_of (q : list fol) : value := VList (map fol_value q).

(** the list of answers is right: no answer twice, every answer belongs to a
    satisfying assignment, every satisfying assignment has its answer *)
Definition right_answers (ext : string -> list value -> Prop) (q : list fol) (b : binding)
    (l : list binding) : Prop :=
  no_duplicates l /\
  (forall r, In r l -> exists s, fol_answer ext q b s r) /\
  (forall s, const_assignment s -> agrees s b -> all_hold ext (keys b) q s ->
     exists r, In r l /\ fol_answer ext q b s r).

(** tables and rules are as they should be *)
Definition good_program {W} (L : lens W rulebase) tables arity rules (w : W) : Prop :=
  good_tables tables arity w /\ (forall p, tables w p <> None -> user_pred p) /\
  lget L w = stored_rules rules /\ (forall r, In r rules -> good_rule (flat_atom arity) r).

Lemma exact_right ext q b l : exact ext q b l -> right_answers ext q b l.
Proof.
  intros [E1 E2 E3]. split; [exact E3|].
  assert (G : forall r s, In r l -> const_assignment s -> agrees s b -> all_hold ext (keys b) q s ->
     (forall x, In x (keys b ++ binds q) -> bget x r = Some (s x)) -> fol_answer ext q b s r).
  { intros r s Hr Hs Ha Hh Hx. split; auto. split; auto. split; auto. intros x. split; [apply Hx|].
    intros Hn. destruct (E1 r Hr) as (_ & _ & Hd & _). destruct (bget x r) eqn:E; auto.
    exfalso. apply Hn, Hd. congruence. }
  split.
  - intros r Hr. pose proof (E1 r Hr) as (C & Ex & Hd & Hh). exists (asg r). apply G; auto.
    + now apply asg_const.
    + now apply asg_agrees.
    + intros x Hx. apply Hd in Hx. unfold asg. now destruct (bget x r).
  - intros s Hs Ha Hh. destruct (E2 s Hs Ha Hh) as (r & Hr & Hx). exists r. split; auto.
Qed.

(** whenever the solver returns, it returns the right answers: sound and
    complete for every interpretation in which the rules define their
    predicates *)
Theorem C44_first_order_queries_exact :
  forall (W : Type) (L : lens W rulebase) tables arity rules (w : W) ext n q b res w',
    good_program L tables arity rules w -> completed (db_of tables w) rules ext ->
    wfs (flat_atom arity) [] (keys b) q -> const_binding b ->
    solve (model L tables) n (query_of q) b w = (Ok res, w') ->
    w' = w /\ exists l, res = SList l /\ right_answers ext q b l.
Proof.
  intros W L tables arity rules w ext n q b res w' (Ht & Hn & Hr & Hg) He Hw Hb H.
  destruct (fol_exact L tables arity rules w ext Ht Hn Hr Hg He n q b res w' Hw Hb H) as (-> & l & -> & Hx).
  split; auto. exists l. split; auto. now apply exact_right.
Qed.
Print Assumptions C44_first_order_queries_exact.

(** no predicate is used that has neither a table nor a rule *)
Definition all_known {W} (tables : W -> string -> option (list (list value))) rules (w : W) (q : list fol) : Prop :=
  (forall p, In p (preds q) -> has_relation tables rules w p) /\
  (forall r p, In r rules -> In p (preds (rl_body r)) -> has_relation tables rules w p).

(** without recursion, and when nothing incomparable is compared, the solver
    does return *)
Theorem C44_evaluation_ends :
  forall (W : Type) (L : lens W rulebase) tables arity rules (w : W) ext rank q b,
    good_program L tables arity rules w -> completed (db_of tables w) rules ext ->
    hierarchical rank rules -> all_known tables rules w q ->
    (forall r s, In r rules -> const_assignment s -> all_safe ext [] (rl_body r) s) ->
    wfs (flat_atom arity) [] (keys b) q -> const_binding b ->
    (forall s, const_assignment s -> agrees s b -> all_safe ext (keys b) q s) ->
    exists n0, forall n, n0 <= n -> exists l,
      solve (model L tables) n (query_of q) b w = (Ok (SList l), w) /\ right_answers ext q b l.
Proof.
  intros W L tables arity rules w ext rank q b (Ht & Hn & Hr & Hg) He Hrank [Hk1 Hk2] Hs Hw Hb Hq.
  set (D := list_max (map (fun r => depth (rl_body r)) rules)).
  set (k := S (list_max (map rank (preds q)))).
  exists (depth q + k * D). intros n Hle.
  destruct (fol_ends L tables arity rules w ext rank D Ht Hn Hr Hg He Hrank) with (n := n) (k := k) (d := depth q) (q := q) (b := b)
    as (r & H); auto.
  - intros r Hin. apply list_max_in. apply in_map_iff. eauto.
  - intros p Hp. split; auto. unfold k. enough (rank p <= list_max (map rank (preds q))) by lia.
    apply list_max_in. apply in_map_iff. eauto.
  - destruct (C44_first_order_queries_exact W L tables arity rules w ext n q b r w) as (_ & l & -> & Hl); auto.
    { exact (conj Ht (conj Hn (conj Hr Hg))). }
    exists l. auto.
Qed.
Print Assumptions C44_evaluation_ends.

(** rules without recursion define their predicates: there is exactly one
    interpretation *)
Theorem C44_rules_define_their_predicates :
  forall db rules rank, hierarchical rank rules ->
    exists ext, completed db rules ext /\
      forall ext', completed db rules ext' -> forall p t, ext' p t <-> ext p t.
Proof.
  intros db rules rank H. exists (meaning db rules rank).
  pose proof (meaning_completed db rules rank H) as M. split; auto.
  intros ext' H' p t. now apply (completed_unique db rules rank H).
Qed.
Print Assumptions C44_rules_define_their_predicates.

(** the same with a check that looks only at the rules, the query and the
    sorts of the columns *)
Theorem C44_sorted_programs_are_answered :
  forall (W : Type) (L : lens W rulebase) tables arity rules (w : W) rank sig env q b,
    good_program L tables arity rules w -> hierarchical rank rules -> all_known tables rules w q ->
    (forall p t, In t (db_of tables w p) -> Forall2 of_sort (sig p) t) ->
    (forall r, In r rules -> sorted_rule sig r) ->
    wfs (flat_atom arity) [] (keys b) q -> const_binding b ->
    all_sorted sig env q -> (forall x v, bget x b = Some v -> of_sort (env x) v) ->
    exists ext, completed (db_of tables w) rules ext /\
      (forall ext', completed (db_of tables w) rules ext' -> forall p t, ext' p t <-> ext p t) /\
      exists n0, forall n, n0 <= n -> exists l,
        solve (model L tables) n (query_of q) b w = (Ok (SList l), w) /\ right_answers ext q b l.
Proof.
  intros W L tables arity rules w rank sig env q b Hgp Hrank Hk Hdb Hsr Hw Hb Hsq Hsb.
  destruct (C44_rules_define_their_predicates (db_of tables w) rules rank Hrank) as (ext & He & Hu).
  exists ext. split; auto. split; auto.
  pose proof Hgp as (_ & _ & _ & Hg).
  assert (Hsp : forall p, sorted_rows sig ext p).
  { eapply (program_sorted sig (flat_atom arity)); eauto. }
  apply (C44_evaluation_ends W L tables arity rules w ext rank); auto.
  - intros r s Hin Hs. destruct (Hsr r Hin) as (env' & _ & E2).
    eapply (query_safe sig ext (flat_atom arity)); eauto; [apply (Hg r Hin)|intros x []].
  - intros s Hs Ha. eapply (query_safe sig ext (flat_atom arity)); eauto.
    intros x Hx. apply bget_In_keys in Hx. destruct (bget x b) as [v|] eqn:E; [|congruence].
    rewrite (Ha x v E). now apply Hsb.
Qed.
Print Assumptions C44_sorted_programs_are_answered.

(** *** an example with all connectives *)

Definition clan_rules : list folrule :=
  [ (* the eldest: nobody is older *)
    mkFolRule (mkAtom "eldest" [V "X"; V "N"])
      [ FAtom (mkAtom "age" [V "X"; V "N"]);
        FNot false [FAtom (mkAtom "age" [V "Y"; V "M"]); FCmp false (V "M") (V "N")] ];
    (* the number of children *)
    mkFolRule (mkAtom "children" [V "X"; V "N"])
      [ FAtom (mkAtom "age" [V "X"; V "A"]); FCount "C" [FAtom (mkAtom "parent" [V "X"; V "Y"])];
        FEq (V "C") (V "N") ];
    (* somebody without children, or all of whose children are grown up *)
    mkFolRule (mkAtom "free" [V "X"; V "N"])
      [ FAtom (mkAtom "children" [V "X"; V "N"]);
        FOr [ [FEq (V "N") (VInt 0); FEq (V "K") (VInt 1)];
              [FSome [FAll "Y" [FAtom (mkAtom "parent" [V "X"; V "Y"])]
                         [FAtom (mkAtom "age" [V "Y"; V "M"]); FCmp true (VInt 17) (V "M")]];
               FEq (V "K") (VInt 2)] ] ] ].

Definition clan : ex_world :=
  (stored_rules clan_rules,
   [ ("parent", [[S_ "ann"; S_ "bob"]; [S_ "bob"; S_ "cid"]; [S_ "ann"; S_ "dot"]]);
     ("age", [[S_ "ann"; VInt 70]; [S_ "bob"; VInt 45]; [S_ "cid"; VInt 15]; [S_ "dot"; VInt 40]]) ]).

Definition clan_rank (p : string) : nat :=
  if String.eqb p "free" then 2 else if String.eqb p "children" then 1 else if String.eqb p "eldest" then 1 else 0.
Definition clan_sig (p : string) : list sort :=
  if String.eqb p "parent" then [Text; Text] else [Text; Number].
Definition clan_env (x : string) : sort :=
  if String.eqb x "X" then Text else if String.eqb x "Y" then Text else Number.

(** who is free and is not the eldest, with more than one descendant or none *)
Definition clan_query : list fol :=
  [ FAtom (mkAtom "free" [V "X"; V "N"]);
    FNot true [FAtom (mkAtom "eldest" [V "X"; V "M"])];
    FDet Lt 1 [FAtom (mkAtom "parent" [V "X"; V "Y"])] ].

Ltac members := let x := fresh "x" in let Hx := fresh "Hx" in
  intros x Hx; simpl in Hx;
  repeat (destruct Hx as [<-|Hx]; [first [left; simpl; tauto | right; simpl; intuition discriminate]|]); destruct Hx.
Ltac flat_v := first [left; eexists; reflexivity | right; reflexivity].
Ltac form :=
  lazymatch goal with
  | |- True => exact I
  | |- user_pred _ => split; [reflexivity|split; discriminate]
  | |- flat_arg _ => flat_v
  | |- forall v, In v _ -> flat_arg v => flat_args
  | |- flat_atom _ _ => split; [|split]; form
  | |- _ = _ => reflexivity
  | |- local _ _ _ => members
  | |- incl _ _ => let x := fresh in let Hx := fresh in intros x Hx; simpl in *; tauto
  | |- known_arg _ _ => simpl; tauto
  | |- known_arg _ _ \/ known_arg _ _ => simpl; tauto
  | |- In _ _ => simpl; tauto
  | |- ~ _ => simpl; intuition discriminate
  | |- forall x, _ <-> _ => simpl; intros; tauto
  | |- _ /\ _ => split; form
  | |- _ \/ _ => simpl; tauto
  end.

Lemma clan_good : good_program ex_lens ex_tables ex_arity clan_rules clan.
Proof.
  split; [|split; [|split]].
  - intros p rows H t Ht. unfold ex_tables, clan in H. simpl in H.
    destruct (String.eqb p "parent"); [injection H as <-|destruct (String.eqb p "age"); [injection H as <-|discriminate]];
    simpl in Ht; repeat (destruct Ht as [<-|Ht]; [split; reflexivity|]); destruct Ht.
  - intros p H. unfold ex_tables, clan in H. simpl in H.
    destruct (String.eqb p "parent") eqn:E; [apply String.eqb_eq in E; subst p; form|].
    destruct (String.eqb p "age") eqn:E'; [apply String.eqb_eq in E'; subst p; form|]. congruence.
  - reflexivity.
  - intros r [<-|[<-|[<-|[]]]]; (split; [form|split; [simpl; form|form]]).
Qed.

Ltac sorts := simpl; repeat first
  [ exact I | reflexivity | split | apply Forall2_cons | apply Forall2_nil
  | (exists Number; split; [first [reflexivity|exact I]|first [reflexivity|exact I]])
  | (exists Text; split; [first [reflexivity|exact I]|first [reflexivity|exact I]]) ].

Example C44_example :
  good_program ex_lens ex_tables ex_arity clan_rules clan /\
  hierarchical clan_rank clan_rules /\
  all_known ex_tables clan_rules clan clan_query /\
  (forall p t, In t (db_of ex_tables clan p) -> Forall2 of_sort (clan_sig p) t) /\
  (forall r, In r clan_rules -> sorted_rule clan_sig r) /\
  wfs (flat_atom ex_arity) [] [] clan_query /\ all_sorted clan_sig clan_env clan_query /\
  answers (solve (model ex_lens ex_tables) 12 (query_of clan_query) [] clan)
  = Some [[("X", S_ "cid"); ("N", VInt 0)]; [("X", S_ "dot"); ("N", VInt 0)]] /\
  answers (solve (model ex_lens ex_tables) 12 (query_of [FAtom (mkAtom "free" [S_ "ann"; V "N"])]) [] clan)
  = Some [[("N", VInt 2)]] /\
  answers (solve (model ex_lens ex_tables) 12 (query_of [FAtom (mkAtom "free" [S_ "bob"; V "N"])]) [] clan)
  = Some [].
Proof.
  split; [exact clan_good|]. split.
  { intros r [<-|[<-|[<-|[]]]] p Hp; simpl in Hp; repeat (destruct Hp as [<-|Hp]; [vm_compute; lia|]); destruct Hp. }
  split.
  { split.
    - intros p Hp. simpl in Hp. repeat (destruct Hp as [<-|Hp]);
        first [now destruct Hp | left; discriminate
              | right; exists (nth 0 clan_rules (mkFolRule (mkAtom "" []) [])); split; [simpl; tauto|reflexivity]
              | right; exists (nth 2 clan_rules (mkFolRule (mkAtom "" []) [])); split; [simpl; tauto|reflexivity]].
    - intros r p [<-|[<-|[<-|[]]]] Hp; simpl in Hp; repeat (destruct Hp as [<-|Hp]);
        first [now destruct Hp | left; discriminate
              | right; exists (nth 1 clan_rules (mkFolRule (mkAtom "" []) [])); split; [simpl; tauto|reflexivity]]. }
  split.
  { intros p t Ht. unfold db_of, ex_tables, clan in Ht. simpl in Ht. unfold clan_sig.
    destruct (String.eqb_spec p "parent") as [->|]; [|destruct (String.eqb_spec p "age") as [->|]; [|destruct Ht]];
      simpl in Ht; repeat (destruct Ht as [<-|Ht]; [repeat constructor|]); destruct Ht. }
  split; [intros r [<-|[<-|[<-|[]]]]; exists clan_env; sorts|].
  split; [simpl; form|]. split; [sorts|].
  split; [vm_compute; reflexivity|]. split; vm_compute; reflexivity.
Qed.

(** ** Where the conditions are needed *)

(** a head variable may not be the variable of [count]: its value is not
    checked, so the rule also answers a question that it does not imply *)
Definition bad_count : folrule :=
  mkFolRule (mkAtom "children" [V "X"; V "N"])
    [ FAtom (mkAtom "age" [V "X"; V "A"]); FCount "N" [FAtom (mkAtom "parent" [V "X"; V "Y"])] ].
Definition bad_count_world : ex_world := (stored_rules [bad_count], snd clan).

Theorem C44_count_in_the_head_refuted :
  let ask args := answers (solve (model ex_lens ex_tables) 9 (query_of [FAtom (mkAtom "children" args)]) [] bad_count_world) in
  ask [S_ "ann"; V "N"] = Some [[("N", VInt 2)]] /\
  (forall ext, completed (db_of ex_tables bad_count_world) [bad_count] ext ->
     ~ ext "children" [S_ "ann"; VInt 7]) /\
  ask [S_ "ann"; VInt 7] = Some [[]].
Proof.
  split; [vm_compute; reflexivity|]. split; [|vm_compute; reflexivity].
  intros ext He Hc. pose proof Hc as Hc'. apply He in Hc' as [F|(r & s & [<-|[]] & Hs & Hb & _ & E)]; [destruct F|].
  simpl in Hb. destruct Hb as (_ & (n & (rows & Hnd & Hl & Hrows) & Hn) & _). simpl in E.
  injection E as E1 E2. rewrite <- E2 in Hn. injection Hn as Hn.
  (* there are only two children *)
  assert (G : forall row, In row rows -> In row [[s "X"; S_ "bob"]; [s "X"; S_ "dot"]]).
  { intros row Hrow. apply Hrows in Hrow as (s' & Hs' & Hsame & [Hp _] & ->).
    apply He in Hp as [Hp|(r & s2 & [<-|[]] & _ & _ & F & _)]; [|discriminate F].
    rewrite <- (Hsame "X"). 2:{ simpl. auto. }
    assert (E3 : s' "X" = S_ "ann") by (rewrite <- (Hsame "X") by (simpl; auto); auto).
    simpl in Hp. destruct Hp as [F|[F|[F|[]]]]; injection F as F1 F2; rewrite <- ?F2; simpl; auto.
    rewrite E3 in F1. discriminate. }
  apply (NoDup_incl_length Hnd) in G. simpl in G. lia.
Qed.
Print Assumptions C44_count_in_the_head_refuted.

(** a negation may not contain a head variable that has no value yet: what
    the rule says then depends on how it is asked *)
Definition bad_not : folrule :=
  mkFolRule (mkAtom "unrelated" [V "X"; V "Y"])
    [ FNot false [FAtom (mkAtom "parent" [V "X"; V "Y"])];
      FAtom (mkAtom "age" [V "X"; V "N"]); FAtom (mkAtom "age" [V "Y"; V "M"]) ].
Definition bad_not_world : ex_world := (stored_rules [bad_not], snd clan).

Theorem C44_negation_before_binding_refuted :
  let ask args := answers (solve (model ex_lens ex_tables) 9 (query_of [FAtom (mkAtom "unrelated" args)]) [] bad_not_world) in
  ask [S_ "bob"; S_ "ann"] = Some [[]] /\ ask [V "A"; V "B"] = Some [].
Proof. split; vm_compute; reflexivity. Qed.
Print Assumptions C44_negation_before_binding_refuted.

(** values of different kinds cannot be compared: the query fails *)
Theorem C44_incomparable_values_refuted :
  fst (solve (model ex_lens ex_tables) 9
    (query_of [FAtom (mkAtom "age" [V "X"; V "N"]); FCmp true (V "X") (V "N")]) [] clan) = Exn TypeErr.
Proof. vm_compute. reflexivity. Qed.
Print Assumptions C44_incomparable_values_refuted.
