(** * Property C89: the errors of the query optimizer *)

From Coq Require Import ZArith QArith String List Bool Lia Arith.
From Verif Require Import Py PyFacts Effects Atoms Earley Composer Optimizer OptimizerSpec
  OptimizerProofs7.
Import ListNotations.
Local Close Scope Q_scope.
Local Open Scope nat_scope.
Local Open Scope string_scope.
Local Open Scope list_scope.

(** for every composition of atoms, the optimizer ends.  It has a result, and
    then the sizes of all relations fit the atoms; or it has one of two errors,
    and then there is an atom, at whatever depth, to blame. *)
Theorem C89_optimizer_fails_only_on_sizes :
  forall find l roots, (forall x, In x l -> proper x) ->
    match optimize find l roots with
    | Ok passes => forall p n, occurs_among p n l -> ~ misfit find p n
    | Exn e =>
        (e = Raise "Number of argument sizes doesn't match that of relation" /\
           exists p n, occurs_among p n l /\ misfit find p n) \/
        (e = ZeroDiv /\ exists p n, occurs_among p n l /\ zero_sized find p)
    | OutOfFuel => False
    end.
Proof.
  intros find l roots H. pose proof (optimize_errors find l roots H) as He. pose proof (optimize_fits find l roots) as Hf.
  destruct (optimize find l roots) as [passes|e|]; [|exact He|exact He]. intros p n. now apply Hf with passes.
Qed.
Print Assumptions C89_optimizer_fails_only_on_sizes.

(** so with one size for each argument, none of them zero, it never fails *)
Theorem C89_fitting_sizes_are_enough :
  forall find l roots, (forall x, In x l -> proper x) ->
    (forall p n r, occurs_among p n l -> In r (find p) ->
       length (z_arguments r) = n /\ forall z, In (Some z) (z_arguments r) -> ~ Qeq z 0) ->
    exists passes, optimize find l roots = Ok passes /\
      map fst passes = ["Semantics"; "Names resolved"; "Sorted by cost"; "Isolated"].
Proof.
  intros find l roots H Hfit. pose proof (C89_optimizer_fails_only_on_sizes find l roots H) as G.
  destruct (optimize find l roots) as [passes|e|] eqn:E; [| |destruct G].
  - exists passes. split; auto. unfold optimize in E.
    destruct (front l) as [a| |]; try discriminate. cbn [obind] in E.
    destruct (sort find a) as [b| |]; try discriminate. cbn [obind] in E.
    destruct (isolate b roots) as [c| |]; try discriminate. cbn [obind] in E. inversion E. reflexivity.
  - exfalso. destruct G as [(_ & p & n & Ho & r & Hr & _ & Hl)|(_ & p & n & Ho & r & z & Hr & _ & Hz & Hq)];
      destruct (Hfit p n r Ho Hr) as (H1 & H2); [auto|exact (H2 z Hz Hq)].
Qed.
Print Assumptions C89_fitting_sizes_are_enough.

(** a query with a name resolver below a quantifier, and a list of texts *)
Definition deep : list value :=
  [ VTuple [VStr "find_all"; VVar "X"; VList
      [ VTuple [VStr "borders"; VVar "X"; VVar "Y"]; VTuple [VStr "resolve_name"; VStr "france"; VVar "Y"] ]];
    VTuple [VStr "one_of"; VVar "X"; VList [VStr "spain"; VStr "peru"]] ].
Definition deep_sizes (p : string) : list sizes :=
  if String.eqb p "borders" then [mkSizes (Some (inject_Z 1000)) [Some (inject_Z 100); Some (inject_Z 100)]] else [].
Example C89_example :
  (forall x, In x deep -> proper x) /\ occurs_among "borders" 2 deep /\ occurs_among "resolve_name" 2 deep /\
  ~ misfit deep_sizes "borders" 2 /\
  exists passes, optimize deep_sizes deep ["X"] = Ok passes.
Proof.
  assert (HA : forall p args, (forall b, ~ In (VList b) args) -> proper (VTuple (VStr p :: args))).
  { intros p args H. constructor. intros b Hb. destruct (H b Hb). }
  split.
  { intros x [<-|[<-|[]]]; constructor; intros b [E|[E|[]]]; try discriminate; inversion E; subst.
    - left. intros x [<-|[<-|[]]]; apply HA; intros b [Eb|[Eb|[]]]; discriminate.
    - right. intros x [<-|[<-|[]]]; exact I. }
  split. { eexists. split; [left; reflexivity|]. eapply occurs_in; [right; left; reflexivity|left; reflexivity|]. now constructor. }
  split. { eexists. split; [left; reflexivity|]. eapply occurs_in; [right; left; reflexivity|right; left; reflexivity|]. now constructor. }
  split. { intros (r & [<-|[]] & _ & Hl). now apply Hl. }
  eexists. vm_compute. reflexivity.
Qed.

(** a relation with a size and the argument sizes left out (Relation.py 21), two
    relations with the same name and different numbers of arguments, and a size
    0: these are accepted when the relation is made; each sentence that is about
    the relation has an error, at whatever depth.  With a size of 0 it depends
    on what is known. *)
Definition left_out (p : string) : list sizes :=
  if String.eqb p "borders" then [mkSizes (Some (inject_Z 1000)) []] else [].
Definition twice (p : string) : list sizes :=
  if String.eqb p "borders" then
    [mkSizes (Some (inject_Z 10)) [Some (inject_Z 10)];
     mkSizes (Some (inject_Z 1000)) [Some (inject_Z 100); Some (inject_Z 100)]] else [].
Definition zero (p : string) : list sizes :=
  if String.eqb p "borders" then [mkSizes (Some 0%Q) [Some 0%Q; Some 0%Q]] else [].
Theorem C89_sizes_are_not_checked_refuted :
  (forall l roots, (forall x, In x l -> proper x) -> occurs_among "borders" 2 l ->
     optimize left_out l roots = Exn (Raise "Number of argument sizes doesn't match that of relation")) /\
  (forall l roots n, (forall x, In x l -> proper x) -> occurs_among "borders" n l ->
     optimize twice l roots = Exn (Raise "Number of argument sizes doesn't match that of relation")) /\
  optimize zero deep ["X"] = Exn ZeroDiv /\
  exists passes, optimize zero [VTuple [VStr "borders"; VVar "X"; VVar "Y"]] ["X"] = Ok passes.
Proof.
  split; [|split; [|split]].
  - intros l roots H Ho. pose proof (C89_optimizer_fails_only_on_sizes left_out l roots H) as G.
    match type of G with match ?o with _ => _ end => destruct o as [passes|e|] end.
    + destruct (G _ _ Ho). exists (mkSizes (Some (inject_Z 1000)) []). cbn. repeat split; auto; discriminate.
    + destruct G as [(-> & _)|(_ & p & n & _ & r & z & Hr & _ & Hz & _)]; auto. exfalso.
      unfold left_out, twice in Hr. destruct (String.eqb p "borders"); [|destruct Hr]. destruct Hr as [<-|[]]. destruct Hz.
    + destruct G.
  - intros l roots n H Ho. pose proof (C89_optimizer_fails_only_on_sizes twice l roots H) as G.
    match type of G with match ?o with _ => _ end => destruct o as [passes|e|] end.
    + destruct (G _ _ Ho). destruct (Nat.eq_dec n 1) as [->|Hn].
      * eexists. cbn. split; [right; left; reflexivity|]. split; [discriminate|]. cbn. lia.
      * eexists. cbn. split; [left; reflexivity|]. split; [discriminate|]. cbn. lia.
    + destruct G as [(-> & _)|(_ & p & m & _ & r & z & Hr & _ & Hz & Hq)]; auto. exfalso.
      unfold left_out, twice in Hr. destruct (String.eqb p "borders"); [|destruct Hr].
      destruct Hr as [<-|[<-|[]]]; cbn in Hz; repeat (destruct Hz as [Hz|Hz]; [inversion Hz; subst; discriminate|]); destruct Hz.
    + destruct G.
  - vm_compute. reflexivity.
  - eexists. vm_compute. reflexivity.
Qed.
Print Assumptions C89_sizes_are_not_checked_refuted.
