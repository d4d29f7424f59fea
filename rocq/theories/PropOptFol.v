(** * Property C85, for queries with nested queries *)

From Coq Require Import ZArith QArith String List Bool Lia Lqa Arith.
From Verif Require Import Py PyFacts Effects EffectsFacts Solver SolverSpec CoreModule InferenceModule TableModule
  Optimizer OptimizerSpec OptimizerProofs2 OptimizerProofs5
  DatalogSpec DatalogProofs DatalogProofs2 FolSpec FolProofs FolProofs2 FolProofs3 FolProofs4 FolProofs5
  OptFolSpec OptFolProofs2 OptFolProofs3 OptFolProofs6 ExampleWorld PropDatalog PropOptimizer PropFol.
Import ListNotations.
Local Close Scope Q_scope.
Local Open Scope nat_scope.
Local Open Scope string_scope.
Local Open Scope list_scope.

(** the optimizer knows the sizes of tables, not those of the library *)
Definition good_sizes (find : string -> list sizes) : Prop :=
  let rels p := map (fun z => (z_relation z, z_arguments z)) (find p) in
  sane_sizes rels (inject_Z 1000000000000) /\ core_unsized rels.
(** the atoms that it puts before formulas without a size *)
Definition put_first (find : string -> list sizes) (p : string) : bool :=
  sized_pred (fun p => map (fun z => (z_relation z, z_arguments z)) (find p)) p.

(** negation, quantifiers, counting and comparisons in the query: when the
    solver answers both the query and what the optimizer made of it, the
    answers are the same *)
Theorem C85_first_order_queries_keep_their_answers :
  forall (W : Type) (L : lens W rulebase) tables arity rules (w : W) ext find n n' q roots b passes r res w1 res' w2,
    good_program L tables arity rules w -> completed (db_of tables w) rules ext ->
    good_sizes find ->
    wfs (flat_atom arity) [] (keys b) q -> tidies (put_first find) [] (keys b) q -> const_binding b ->
    optimize find (map fol_value q) roots = Ok passes -> In ("Isolated", r) passes ->
    solve (model L tables) n (query_of q) b w = (Ok res, w1) ->
    solve (model L tables) n' r b w = (Ok res', w2) ->
    exists l l', res = SList l /\ res' = SList l' /\
      (forall x, In x l -> exists x', In x' l' /\ same_answer roots b x x') /\
      (forall x', In x' l' -> exists x, In x l /\ same_answer roots b x x').
Proof.
  intros W L tables arity rules w ext find n n' q roots b passes r res w1 res' w2 Hp He [Hs Hc] Hw Ht Hb Ho Hin H H'.
  destruct (optimized_query find arity Hs Hc q roots passes r (keys b) Hw Ht Ho Hin) as (q1 & q2 & -> & Ha & Hi).
  pose proof (optimized_ok find arity ext (keys b) roots q q1 q2 Hw Ht Ha Hi) as Hok.
  destruct (C44_first_order_queries_exact W L tables arity rules w ext n q b res w1) as (_ & l & -> & Hl); auto.
  destruct (C44_first_order_queries_exact W L tables arity rules w ext n' q2 b res' w2) as (_ & l' & -> & Hl'); auto.
  { exact (io_wf _ _ _ _ _ _ Hok). }
  destruct (optimized_answers arity ext roots q q2 b l l' Hok Hl Hl'). eauto 8.
Qed.
Print Assumptions C85_first_order_queries_keep_their_answers.

(** and when rules are not recursive, and the columns of the tables have one
    sort, the optimizer and the solver do return *)
Theorem C85_optimized_first_order_queries_are_answered :
  forall (W : Type) (L : lens W rulebase) tables arity rules (w : W) rank sig env find q roots b,
    good_program L tables arity rules w -> hierarchical rank rules -> all_known tables rules w q ->
    (forall p t, In t (db_of tables w p) -> Forall2 of_sort (sig p) t) ->
    (forall r, In r rules -> sorted_rule sig r) ->
    good_sizes find -> (forall p r n, In r (find p) -> z_relation r = Some n -> length (z_arguments r) = arity p) ->
    wfs (flat_atom arity) [] (keys b) q -> tidies (put_first find) [] (keys b) q -> const_binding b ->
    all_sorted sig env q -> (forall x v, bget x b = Some v -> of_sort (env x) v) ->
    exists passes r, optimize find (map fol_value q) roots = Ok passes /\ In ("Isolated", r) passes /\
      exists n0, forall n, n0 <= n -> exists l l',
        solve (model L tables) n (query_of q) b w = (Ok (SList l), w) /\
        solve (model L tables) n r b w = (Ok (SList l'), w) /\
        (forall x, In x l -> exists x', In x' l' /\ same_answer roots b x x') /\
        (forall x', In x' l' -> exists x, In x l /\ same_answer roots b x x').
Proof.
  intros W L tables arity rules w rank sig env find q roots b Hp Hr Hk Hdb Hsr [Hs Hc] Hm Hw Ht Hb Hsq Hsb.
  destruct (optimize_total find arity Hs Hc) with (q := q) (roots := roots) (B := keys b) as (passes & r & Ho & Hin); auto.
  { intros p x n Hx En. apply in_map_iff in Hx as (z & <- & Hz). now apply (Hm p z n). }
  exists passes, r. split; auto. split; auto.
  destruct (optimized_query find arity Hs Hc q roots passes r (keys b) Hw Ht Ho Hin) as (q1 & q2 & -> & Ha & Hi).
  assert (Hok : forall ext, iso_ok ext (flat_atom arity) roots (keys b) q q2) by (intros; eapply optimized_ok; eauto).
  destruct (C44_sorted_programs_are_answered W L tables arity rules w rank sig env q b) as (ext & He & Hu & n1 & H1); auto.
  destruct (C44_sorted_programs_are_answered W L tables arity rules w rank sig env q2 b) as (ext' & He' & Hu' & n2 & H2); auto.
  { destruct Hk as [K1 K2]. split; auto. intros p Hp2. apply K1. revert Hp2. eapply optimized_preds; eauto. }
  { exact (io_wf _ _ _ _ _ _ (Hok (fun _ _ => True))). }
  { eapply optimized_sorted; eauto. }
  exists (max n1 n2). intros n Hn. destruct (H1 n ltac:(lia)) as (l & Hl & _). destruct (H2 n ltac:(lia)) as (l' & Hl' & _).
  exists l, l'. split; auto. split; auto.
  destruct (C44_first_order_queries_exact W L tables arity rules w ext n q b _ w Hp He Hw Hb Hl) as (_ & m & E & R).
  destruct (C44_first_order_queries_exact W L tables arity rules w ext n q2 b _ w Hp He (io_wf _ _ _ _ _ _ (Hok ext)) Hb Hl') as (_ & m' & E' & R').
  injection E as <-. injection E' as <-. eapply optimized_answers; eauto.
Qed.
Print Assumptions C85_optimized_first_order_queries_are_answered.

(** *** an example *)

(** two tables have a size; the predicates of the rules have none *)
Definition clan_sizes (p : string) : list sizes :=
  if String.eqb p "parent" then [mkSizes (Some 3%Q) [Some 2%Q; Some 3%Q]]
  else if String.eqb p "age" then [mkSizes (Some 4%Q) [Some 4%Q; Some 4%Q]]
  else [mkSizes None []].

Lemma clan_sizes_good : good_sizes clan_sizes.
Proof.
  split.
  - intros p r n Hr. unfold clan_sizes in Hr.
    destruct (String.eqb p "parent"); [|destruct (String.eqb p "age")]; destruct Hr as [<-|[]]; cbn [fst snd]; intros E; try discriminate;
      injection E as <-; (split; [discriminate|]); (split; [reflexivity|]); intros m [E|[E|[]]]; injection E as <-; discriminate.
  - intros p Hp. repeat (destruct Hp as [<-|Hp]; [split; [discriminate|intros r [<-|[]]; reflexivity]|]). destruct Hp.
Qed.

(** who is the eldest of the people without young children, and are there
    people of 15? *)
Definition opt_query : list fol :=
  [ FAtom (mkAtom "eldest" [V "X"; V "N"]);
    FAtom (mkAtom "age" [V "Z"; V "M"]);
    FNot false [FAtom (mkAtom "children" [V "X"; V "K"]); FAtom (mkAtom "parent" [V "X"; V "Y"]);
                FAtom (mkAtom "age" [V "Y"; V "J"]); FCmp true (V "J") (VInt 18)];
    FEq (V "M") (VInt 15);
    FDet Gt 1 [FAtom (mkAtom "eldest" [V "X"; V "N"]); FAtom (mkAtom "parent" [V "X"; V "C"])] ].
Definition opt_env (x : string) : sort :=
  if existsb (String.eqb x) ["X"; "Y"; "Z"; "C"] then Text else Number.

Ltac place := let H := fresh in let x := fresh "x" in let Hx := fresh "Hx" in
  intros H x Hx; simpl in H, Hx |- *; try discriminate;
  repeat (destruct Hx as [<-|Hx]; [split; [intuition discriminate|intros; first [left; simpl; tauto|right; split; simpl; intuition discriminate]]|]);
  destruct Hx.

Example C85_first_order_example :
  good_program ex_lens ex_tables ex_arity clan_rules clan /\ good_sizes clan_sizes /\
  all_known ex_tables clan_rules clan opt_query /\
  (forall p r n, In r (clan_sizes p) -> z_relation r = Some n -> length (z_arguments r) = ex_arity p) /\
  wfs (flat_atom ex_arity) [] [] opt_query /\ tidies (put_first clan_sizes) [] [] opt_query /\
  all_sorted clan_sig opt_env opt_query /\
  In ("Isolated", query_of
        [ FAtom (mkAtom "age" [V "Z"; V "M"]);
          FAtom (mkAtom "eldest" [V "X"; V "N"]);
          FNot false [FAtom (mkAtom "parent" [V "X"; V "Y"]); FAtom (mkAtom "age" [V "Y"; V "J"]);
                      FAtom (mkAtom "children" [V "X"; V "K"]); FCmp true (V "J") (VInt 18)];
          FDet Gt 1 [FAtom (mkAtom "parent" [V "X"; V "C"]); FAtom (mkAtom "eldest" [V "X"; V "N"])];
          FSome [FEq (V "M") (VInt 15)] ])
     (ex_passes clan_sizes (map fol_value opt_query) ["X"]) /\
  answers (solve (model ex_lens ex_tables) 12 (query_of opt_query) [] clan)
    = Some [[("X", S_ "ann"); ("N", VInt 70); ("Z", S_ "cid"); ("M", VInt 15)]].
Proof.
  split; [exact clan_good|]. split; [exact clan_sizes_good|].
  split.
  { split.
    - intros p Hp. simpl in Hp. repeat (destruct Hp as [<-|Hp]);
        first [now destruct Hp | left; discriminate
              | right; exists (nth 0 clan_rules (mkFolRule (mkAtom "" []) [])); split; [simpl; tauto|reflexivity]
              | right; exists (nth 1 clan_rules (mkFolRule (mkAtom "" []) [])); split; [simpl; tauto|reflexivity]].
    - intros r p [<-|[<-|[<-|[]]]] Hp; simpl in Hp; repeat (destruct Hp as [<-|Hp]);
        first [now destruct Hp | left; discriminate
              | right; exists (nth 1 clan_rules (mkFolRule (mkAtom "" []) [])); split; [simpl; tauto|reflexivity]]. }
  split.
  { intros p r n Hr. unfold clan_sizes in Hr.
    destruct (String.eqb_spec p "parent") as [->|]; [|destruct (String.eqb_spec p "age") as [->|]];
      destruct Hr as [<-|[]]; intros E; try discriminate; reflexivity. }
  split; [simpl; form|].
  split; [unfold opt_query; cbn [tidies tidy]; repeat first [apply conj|exact I|discriminate|place|(repeat constructor; fail)]|].
  split; [sorts|].
  split; [vm_compute; auto 6|vm_compute; reflexivity].
Qed.

(** ** Where the conditions are needed *)

(** a variable in a negation that occurs elsewhere, but has no value yet: the
    negation gets a value when the atom is put before it *)
Definition unbound_not : list fol :=
  [ FNot false [FAtom (mkAtom "age" [V "X"; V "M"]); FCmp false (V "M") (VInt 60)]; FAtom (mkAtom "age" [V "X"; V "N"]) ].
Theorem C85_negation_gets_values_refuted :
  exists r, good_sizes clan_sizes /\ wfs (flat_atom ex_arity) [] [] unbound_not /\
    In ("Isolated", r) (ex_passes clan_sizes (map fol_value unbound_not) ["X"]) /\
    answers (solve (model ex_lens ex_tables) 12 (query_of unbound_not) [] clan) = Some [] /\
    answers (solve (model ex_lens ex_tables) 12 r [] clan)
      = Some [[("X", S_ "bob"); ("N", VInt 45)]; [("X", S_ "cid"); ("N", VInt 15)]; [("X", S_ "dot"); ("N", VInt 40)]].
Proof.
  exists (query_of [FAtom (mkAtom "age" [V "X"; V "N"]);
    FSome [FNot false [FAtom (mkAtom "age" [V "X"; V "M"]); FCmp false (V "M") (VInt 60)]]]).
  split; [exact clan_sizes_good|]. split; [simpl; form|]. split; [vm_compute; auto 6|]. split; vm_compute; reflexivity.
Qed.
Print Assumptions C85_negation_gets_values_refuted.

(** the number that is counted occurs in an atom that is put before it: then
    it is no longer compared *)
Definition count_then_age : list fol :=
  [ FCount "N" [FAtom (mkAtom "parent" [V "A"; V "B"])]; FAtom (mkAtom "age" [V "X"; V "N"]) ].
Theorem C85_count_is_overwritten_refuted :
  exists r, good_sizes clan_sizes /\ wfs (flat_atom ex_arity) [] [] count_then_age /\
    In ("Isolated", r) (ex_passes clan_sizes (map fol_value count_then_age) ["X"]) /\
    answers (solve (model ex_lens ex_tables) 12 (query_of count_then_age) [] clan) = Some [] /\
    exists l, answers (solve (model ex_lens ex_tables) 12 r [] clan) = Some l /\ length l = 4.
Proof.
  exists (query_of [FAtom (mkAtom "age" [V "X"; V "N"]); FSome [FCount "N" [FAtom (mkAtom "parent" [V "A"; V "B"])]]]).
  split; [exact clan_sizes_good|]. split; [simpl; form|]. split; [vm_compute; auto 6|]. split; [vm_compute; reflexivity|].
  eexists. split; vm_compute; reflexivity.
Qed.
Print Assumptions C85_count_is_overwritten_refuted.

(** a disjunction has no relations, so it costs nothing and is put first: a
    comparison in it fails *)
Definition young_or_old : list fol :=
  [ FAtom (mkAtom "age" [V "X"; V "N"]); FOr [[FCmp true (V "N") (VInt 18)]; [FCmp false (V "N") (VInt 60)]] ].
Theorem C85_disjunction_is_put_first_refuted :
  let sizes p := if String.eqb p "$disjunction" then [] else clan_sizes p in
  exists r, good_sizes sizes /\ wfs (flat_atom ex_arity) [] [] young_or_old /\
    In ("Isolated", r) (ex_passes sizes (map fol_value young_or_old) ["X"]) /\
    answers (solve (model ex_lens ex_tables) 12 (query_of young_or_old) [] clan)
      = Some [[("X", S_ "ann"); ("N", VInt 70)]; [("X", S_ "cid"); ("N", VInt 15)]] /\
    exists e, fst (solve (model ex_lens ex_tables) 12 r [] clan) = Exn e.
Proof.
  intros sizes. exists (query_of [FOr [[FCmp true (V "N") (VInt 18)]; [FCmp false (V "N") (VInt 60)]]; FAtom (mkAtom "age" [V "X"; V "N"])]).
  split.
  { split.
    - intros p r n Hr. unfold sizes, clan_sizes in Hr. destruct (String.eqb p "$disjunction"); [destruct Hr|].
      exact (proj1 clan_sizes_good p r n Hr).
    - intros p Hp. repeat (destruct Hp as [<-|Hp]; [split; [discriminate|intros r [<-|[]]; reflexivity]|]). destruct Hp. }
  split; [simpl; form|]. split; [vm_compute; auto 6|]. split; [vm_compute; reflexivity|].
  eexists. vm_compute. reflexivity.
Qed.
Print Assumptions C85_disjunction_is_put_first_refuted.
