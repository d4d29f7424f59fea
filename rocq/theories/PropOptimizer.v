(** * Properties C84-C87: the query optimizer *)

From Coq Require Import ZArith QArith String List Bool Permutation Lia Arith Factorial.
From Verif Require Import Py PyFacts ReprProofs Effects EffectsFacts Solver SolverSpec SolverProofs SolverProofs2
  MatchProofs Atoms AtomsFacts CoreModule CoreSpec CoreProofs InferenceModule TableModule
  DatalogSpec DatalogProofs DatalogProofs2 DatalogThms ExampleWorld Earley Composer PropDatalog
  Optimizer OptimizerSpec OptimizerProofs OptimizerProofs2 OptimizerProofs3 OptimizerProofs4 OptimizerProofs5.
Import ListNotations.
Local Close Scope Q_scope.
Local Open Scope nat_scope.
Local Open Scope string_scope.
Local Open Scope list_scope.

(** ** C84 *)

(** FrontResolveName: the name resolvers come first, in their order; the
    rest follows, in its order, without them *)
Theorem C84_resolvers_come_first :
  forall l,
    if no_empty_atom (VList l) then
      exists rest, without_resolvers (VList l) = VList rest /\
        front l = Ok (resolvers (VList l) ++ rest) /\
        (forall a, In a (resolvers (VList l)) -> is_resolver a = true) /\
        resolvers (VList rest) = [] /\
        Permutation (leaves (VList l)) (leaves (VList (resolvers (VList l) ++ rest)))
    else front l = Exn IndexErr.
Proof.
  intros l. pose proof (front_spec l) as H. pose proof (front_leaves l) as HL.
  destruct (no_empty_atom (VList l)); auto.
  exists (others l). split; [reflexivity|]. split; [exact H|]. split; [intros a; apply resolvers_are|].
  split; [apply (without_none (VList l))|]. now apply HL.
Qed.
Print Assumptions C84_resolvers_come_first.

(** SortByCost: the same atoms in another order, at every level *)
Theorem C84_sorting_permutes :
  forall find l,
    sort find l <> OutOfFuel /\
    forall r, sort find l = Ok r -> reordered l r /\ Permutation (leaves (VList l)) (leaves (VList r)).
Proof.
  intros find l. split; [apply sort_fuel|]. intros r H. apply sort_ok in H.
  apply (cheapest_reordered_all find) in H. split; auto. exact (proj1 reordered_leaves_all _ _ H).
Qed.
Print Assumptions C84_sorting_permutes.

(** IsolateIndependentParts always ends, without an error, and keeps every
    atom; the first one stays first.  When no two atoms are equal, each is kept
    once. *)
Theorem C84_isolation_keeps_atoms :
  forall atoms roots, exists r m,
    isolate atoms roots = Ok r /\ unscoped r m /\ hd_error r = hd_error atoms /\
    (forall a, In a m -> In a atoms) /\
    (forall a, In a atoms -> exists a', In a' m /\ py_eq a' a = true) /\
    (all_different atoms -> Permutation atoms m).
Proof.
  intros atoms roots. destruct (isolate_total atoms roots) as (r & H). exists r.
  destruct (isolate_from_unscoped _ _ _ _ H) as (m & H1 & (H2 & H3) & H4 & H5). exists m. auto 10.
Qed.
Print Assumptions C84_isolation_keeps_atoms.

(** which atoms end up in a 'scoped' together *)
Theorem C84_isolated_groups :
  forall atoms roots r, all_different atoms -> isolate atoms roots = Ok r -> isolated roots atoms r.
Proof. intros atoms roots r. apply isolate_from_isolated. Qed.
Print Assumptions C84_isolated_groups.

(** but equal atoms are multiplied: [n + 1] copies of an atom without
    variables become at least [n!] copies *)
Theorem C84_equal_atoms_are_multiplied_refuted :
  forall a n roots, (forall x, ~ mentions x a) ->
    exists r m, isolate (repeat a (S n)) roots = Ok r /\ unscoped r m /\
      (forall b, In b m -> b = a) /\ fact n <= length m.
Proof.
  intros a n roots Ha.
  assert (Hv : atom_variables a = []).
  { destruct (atom_variables a) as [|x l] eqn:E; auto. exfalso. apply (Ha x), mentions_variables. rewrite E. now left. }
  exists (blown a (S n)), (repeat a (copies (S n))). split.
  - unfold isolate. rewrite repeat_length. now apply isolate_repeat.
  - split; [apply blown_copies|]. split; [intros b; apply repeat_spec|]. rewrite repeat_length. apply copies_fact.
Qed.
Print Assumptions C84_equal_atoms_are_multiplied_refuted.

Definition no_sizes : string -> list sizes := fun _ => [mkSizes None []].
Definition ex_passes (find : string -> list sizes) l roots : list (string * value) :=
  match optimize find l roots with Ok p => p | _ => [] end.

Example C84_example :
  let name := A "resolve_name" [S_ "John"; V "E"] in
  let l := [A "find" [V "E"; VList [A "person" [V "E"]; name]]; A "color" [V "C"]; A "red" [V "C"]] in
  no_empty_atom (VList l) = true /\ resolvers (VList l) = [name] /\
  optimize no_sizes l ["E"] = Ok
    [("Semantics", VList l);
     ("Names resolved", VList [name; A "find" [V "E"; VList [A "person" [V "E"]]]; A "color" [V "C"]; A "red" [V "C"]]);
     ("Sorted by cost", VList [name; A "find" [V "E"; VList [A "person" [V "E"]]]; A "color" [V "C"]; A "red" [V "C"]]);
     ("Isolated", VList [name; A "scoped" [VList [A "find" [V "E"; VList [A "person" [V "E"]]]]];
                         A "scoped" [VList [A "color" [V "C"]; A "scoped" [VList [A "red" [V "C"]]]]]])].
Proof. split; [reflexivity|]. split; [reflexivity|]. vm_compute. reflexivity. Qed.

Example C84_example_all_different :
  all_different [A "p" [V "X"]; A "q" [V "X"]; A "q" [V "Y"]] /\
  (forall x, ~ mentions x (A "rain" [])).
Proof.
  split.
  - cbn [all_different]. repeat split; intros x Hx; repeat (destruct Hx as [<-|Hx]; [reflexivity|]); destruct Hx.
  - intros x H. inversion H; subst. destruct H1 as [<-|[]]. inversion H2.
Qed.

(** ** C85 *)

(** the optimized query of a conjunction of atoms has the same answers: each
    answer of the one has the values that an answer of the other has for the
    root variables and the variables that were bound before *)
Theorem C85_optimizer_preserves_answers :
  forall (W : Type) (L : lens W rulebase) tables arity rules (w : W) rank find n q roots b passes r,
    good_tables tables arity w -> lget L w = rulebase_of rules ->
    (forall r, In r rules -> flat_rule arity r /\ range_restricted r) ->
    hierarchical tables rules w rank -> tables w "scoped" = None ->
    flat_atoms arity q -> (forall a, In a q -> no_list_args a) ->
    (forall a, In a q -> rank (fa_pred a) <= n /\ DatalogProofs2.known tables rules w (fa_pred a)) ->
    const_binding b ->
    optimize find (map atom_value q) roots = Ok passes -> In ("Isolated", r) passes ->
    exists l l',
      solve (model L tables) (S (n + length q)) (atoms_of q) b w = (Ok (SList l), w) /\
      solve (model L tables) (S (n + length q)) r b w = (Ok (SList l'), w) /\
      (forall x, In x l -> exists x', In x' l' /\ same_answer roots b x x') /\
      (forall x', In x' l' -> exists x, In x l /\ same_answer roots b x x').
Proof.
  intros W L tables arity rules w rank find n q roots b passes r Ht Hr Hf Hh Hs Hq Hn Hk Hb H Hin.
  unfold optimize in H.
  destruct (front (map atom_value q)) as [r1| |] eqn:E1; cbn [obind] in H; try discriminate.
  destruct (sort find r1) as [r2| |] eqn:E2; cbn [obind] in H; try discriminate.
  destruct (isolate r2 roots) as [r3| |] eqn:E3; cbn [obind] in H; try discriminate.
  injection H as <-. destruct Hin as [E|[E|[E|[E|[]]]]]; try discriminate. injection E as <-.
  destruct (front_sort_plain find q r1 r2 Hn E1 E2) as (q' & -> & Hp).
  now apply (isolated_answers L tables arity rules w Ht Hr Hf rank Hh Hs n q q' roots r3 b).
Qed.
Print Assumptions C85_optimizer_preserves_answers.

(** the pass alone, for all flat atoms *)
Theorem C85_isolation_preserves_answers :
  forall (W : Type) (L : lens W rulebase) tables arity rules (w : W) rank n q roots b r,
    good_tables tables arity w -> lget L w = rulebase_of rules ->
    (forall r, In r rules -> flat_rule arity r /\ range_restricted r) ->
    hierarchical tables rules w rank -> tables w "scoped" = None ->
    flat_atoms arity q ->
    (forall a, In a q -> rank (fa_pred a) <= n /\ DatalogProofs2.known tables rules w (fa_pred a)) ->
    const_binding b ->
    isolate (map atom_value q) roots = Ok r ->
    exists l l',
      solve (model L tables) (S (n + length q)) (atoms_of q) b w = (Ok (SList l), w) /\
      solve (model L tables) (S (n + length q)) (VList r) b w = (Ok (SList l'), w) /\
      (forall x, In x l -> exists x', In x' l' /\ same_answer roots b x x') /\
      (forall x', In x' l' -> exists x, In x l /\ same_answer roots b x x').
Proof.
  intros W L tables arity rules w rank n q roots b r Ht Hr Hf Hh Hs Hq Hk Hb H.
  now apply (isolated_answers L tables arity rules w Ht Hr Hf rank Hh Hs n q q roots r b).
Qed.
Print Assumptions C85_isolation_preserves_answers.

Definition q_family : list fatom :=
  [mkAtom "parent" [V "X"; V "Y"]; mkAtom "age" [V "X"; V "N"]; mkAtom "parent" [V "Z"; S_ "cid"]].
Example C85_example :
  good_tables ex_tables ex_arity facts_only /\ lget ex_lens facts_only = rulebase_of [] /\
  hierarchical ex_tables [] facts_only (fun _ => 0) /\ ex_tables facts_only "scoped" = None /\
  flat_atoms ex_arity q_family /\ (forall a, In a q_family -> no_list_args a) /\
  (forall a, In a q_family -> DatalogProofs2.known ex_tables [] facts_only (fa_pred a)) /\
  optimize no_sizes (map atom_value q_family) ["Y"] = Ok (ex_passes no_sizes (map atom_value q_family) ["Y"]) /\
  In ("Isolated", VList [A "parent" [V "X"; V "Y"]; A "scoped" [VList [A "age" [V "X"; V "N"]]];
                         A "scoped" [VList [A "parent" [V "Z"; S_ "cid"]]]])
     (ex_passes no_sizes (map atom_value q_family) ["Y"]) /\
  answers (solve (model ex_lens ex_tables) 4 (atoms_of q_family) [] facts_only)
    = Some [[("X", S_ "ann"); ("Y", S_ "bob"); ("N", VInt 70); ("Z", S_ "bob")];
            [("X", S_ "bob"); ("Y", S_ "cid"); ("N", VInt 45); ("Z", S_ "bob")];
            [("X", S_ "ann"); ("Y", S_ "dot"); ("N", VInt 70); ("Z", S_ "bob")]].
Proof.
  split; [exact ex_good_tables|]. split; [reflexivity|]. split; [intros r []|]. split; [reflexivity|].
  split; [intros a [<-|[<-|[<-|[]]]]; flat|].
  split; [intros a [<-|[<-|[<-|[]]]] v [<-|[<-|[]]] l; discriminate|].
  split; [intros a [<-|[<-|[<-|[]]]]; left; discriminate|].
  split; [vm_compute; reflexivity|]. split; [vm_compute; auto|]. vm_compute. reflexivity.
Qed.

(** ** C86 *)

(** the first atom holds X without binding it *)
Definition q_not : list value := [A "not" [VList [A "p" [V "X"]]]; A "q" [V "X"]; A "r" [V "X"]].
Definition w_not : ex_world := ([], [("p", []); ("q", [[VInt 1]]); ("r", [[VInt 2]])]).

Theorem C86_isolation_adds_answers_refuted :
  exists r,
    optimize no_sizes q_not [] = Ok (ex_passes no_sizes q_not []) /\ In ("Isolated", r) (ex_passes no_sizes q_not []) /\
    answers (solve (model ex_lens ex_tables) 3 (VList q_not) [] w_not) = Some [] /\
    answers (solve (model ex_lens ex_tables) 5 r [] w_not) = Some [[]].
Proof.
  exists (VList [A "not" [VList [A "p" [V "X"]]]; A "scoped" [VList [A "q" [V "X"]]]; A "scoped" [VList [A "r" [V "X"]]]]).
  split; [vm_compute; reflexivity|]. split; [vm_compute; auto|]. split; vm_compute; reflexivity.
Qed.
Print Assumptions C86_isolation_adds_answers_refuted.

(** ** C87 *)

Theorem C87_cheapest_first :
  forall find l r, sort find l = Ok r ->
    cheapest_first (fun p => map (fun z => (z_relation z, z_arguments z)) (find p)) (inject_Z 1000000000000) [] l r.
Proof. intros find l r H. exact (sort_ok find l r H). Qed.
Print Assumptions C87_cheapest_first.

(** atoms of equal cost do not keep the order they had in the composition:
    the ranking for an earlier choice stays *)
Definition tie_sizes (p : string) : list sizes :=
  if String.eqb p "a" then [mkSizes (Some 1%Q) [Some 1%Q]]
  else if String.eqb p "b" then [mkSizes (Some 5%Q) [Some 5%Q]]
  else [mkSizes (Some 3%Q) [Some 3%Q]].
Theorem C87_ties_keep_their_order_refuted :
  let rels p := map (fun z => (z_relation z, z_arguments z)) (tie_sizes p) in
  (exists c c', cost rels INFINITE ["X"] (A "b" [V "X"]) c /\ cost rels INFINITE ["X"] (A "c" [V "X"]) c' /\ (c == c')%Q) /\
  sort tie_sizes [A "a" [V "X"]; A "b" [V "X"]; A "c" [V "X"]]
    = Ok [A "a" [V "X"]; A "c" [V "X"]; A "b" [V "X"]].
Proof.
  intros rels. split; [|vm_compute; reflexivity]. exists 1%Q, 1%Q.
  assert (G : forall p n, rels p = [(Some n, [Some n])] -> ~ (n == 0)%Q -> cost rels INFINITE ["X"] (A p [V "X"]) 1%Q).
  { intros p n E Hn. exists (VStr p), [V "X"]. split; [now left|]. cbn zeta. rewrite E. right.
    assert (R : rows INFINITE ["X"] [V "X"] (Some n, [Some n]) 1).
    { exists (n * 1)%Q. split; [apply div_known; [now left|constructor]|].
      split; [now rewrite Qmult_1_r|now rewrite Qmult_1_r, Qmult_1_l]. }
    split; [exists (Some n, [Some n]); split; [now left|exact R]|].
    intros r [<-|[]]. exists 1%Q. split; [exact R|apply Qle_refl]. }
  split; [apply (G "b" 5%Q); [reflexivity|discriminate]|].
  split; [apply (G "c" 3%Q); [reflexivity|discriminate]|reflexivity].
Qed.
Print Assumptions C87_ties_keep_their_order_refuted.

(** a name resolver that was moved to the front is moved back: its relation has
    no size *)
Definition name_sizes (p : string) : list sizes :=
  if String.eqb p "resolve_name" then [mkSizes None []] else [mkSizes (Some 10%Q) [Some 10%Q]].
Theorem C87_resolver_is_moved_back_refuted :
  let name := A "resolve_name" [S_ "John"; V "E"] in
  In ("Names resolved", VList [name; A "person" [V "E"]]) (ex_passes name_sizes [A "person" [V "E"]; name] []) /\
  In ("Sorted by cost", VList [A "person" [V "E"]; name]) (ex_passes name_sizes [A "person" [V "E"]; name] []).
Proof. vm_compute. auto. Qed.
Print Assumptions C87_resolver_is_moved_back_refuted.

Example C87_example :
  sort (fun p => if String.eqb p "big" then [mkSizes (Some 1000%Q) [Some 10%Q; Some 10%Q]]
                 else if String.eqb p "small" then [mkSizes (Some 5%Q) [Some 5%Q]] else [])
       [A "big" [V "X"; V "Y"]; A "small" [V "X"]; A "none" [VList [A "big" [V "X"; V "Z"]; A "small" [V "Z"]]]]
  = Ok [A "none" [VList [A "small" [V "Z"]; A "big" [V "X"; V "Z"]]]; A "small" [V "X"]; A "big" [V "X"; V "Y"]].
Proof. vm_compute. reflexivity. Qed.
