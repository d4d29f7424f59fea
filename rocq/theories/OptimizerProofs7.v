(** * The errors of the query optimizer, and when it has none *)

From Coq Require Import ZArith QArith String List Bool Permutation Lia Arith.
From Verif Require Import Py PyFacts Effects Atoms Earley Composer Optimizer OptimizerSpec
  OptimizerProofs OptimizerProofs2 OptimizerProofs3 OptimizerProofs6.
Import ListNotations.
Local Close Scope Q_scope.
Local Open Scope nat_scope.
Local Open Scope string_scope.
Local Open Scope list_scope.

(** ** Specification *)

(** neither a tuple nor a list *)
Definition simple_value (v : value) : Prop :=
  match v with VTuple _ | VList _ => False | _ => True end.

(** what a composer makes: an atom with a name; each argument that is a list
    holds only such atoms, or only simple values *)
Inductive proper : value -> Prop :=
| proper_intro p args :
    (forall b, In (VList b) args -> (forall x, In x b -> proper x) \/ (forall x, In x b -> simple_value x)) ->
    proper (VTuple (VStr p :: args)).

(** [v] has an atom with predicate [p] and [n] arguments *)
Inductive occurs (p : string) (n : nat) : value -> Prop :=
| occurs_here args : length args = n -> occurs p n (VTuple (VStr p :: args))
| occurs_in h args b x : In (VList b) args -> In x b -> occurs p n x -> occurs p n (VTuple (h :: args)).
Definition occurs_among (p : string) (n : nat) (l : list value) : Prop := exists x, In x l /\ occurs p n x.

(** a relation with a size, and not one size for each argument *)
Definition misfit (find : string -> list sizes) (p : string) (n : nat) : Prop :=
  exists r, In r (find p) /\ z_relation r <> None /\ length (z_arguments r) <> n.
(** a relation with a size, and an argument of size 0 *)
Definition zero_sized (find : string -> list sizes) (p : string) : Prop :=
  exists r z, In r (find p) /\ z_relation r <> None /\ In (Some z) (z_arguments r) /\ Qeq z 0.

(** ** Results that may be an error *)

Definition ok_or {A} (P : exn -> Prop) (o : outcome A) : Prop :=
  match o with Ok _ => True | Exn e => P e | OutOfFuel => False end.
Lemma ok_or_bind {A B} P (o : outcome A) (f : A -> outcome B) :
  ok_or P o -> (forall x, o = Ok x -> ok_or P (f x)) -> ok_or P (obind o f).
Proof. destruct o; cbn; auto. Qed.
Lemma ok_or_weaken {A} (P P' : exn -> Prop) (o : outcome A) : (forall e, P e -> P' e) -> ok_or P o -> ok_or P' o.
Proof. destruct o; cbn; auto. Qed.
Lemma ok_or_omap {A B} P (f : A -> outcome B) l : (forall x, In x l -> ok_or P (f x)) -> ok_or P (omap f l).
Proof.
  induction l as [|x l IH]; intros H; [exact I|]. cbn [omap]. apply ok_or_bind; [apply H; now left|].
  intros y _. apply ok_or_bind; [apply IH; intros; apply H; now right|]. intros; exact I.
Qed.

Section Errors.
  Variable find : string -> list sizes.

  (** the errors of the sort, for atoms that [here] says occur *)
  Definition size_error (here : string -> nat -> Prop) (e : exn) : Prop :=
    (e = Raise "Number of argument sizes doesn't match that of relation" /\ exists p n, here p n /\ misfit find p n) \/
    (e = ZeroDiv /\ exists p n, here p n /\ zero_sized find p).
  Lemma size_error_weaken (h h' : string -> nat -> Prop) e :
    (forall p n, h p n -> h' p n) -> size_error h e -> size_error h' e.
  Proof. intros H [(-> & p & n & H1 & H2)|(-> & p & n & H1 & H2)]; [left|right]; split; eauto. Qed.

  Lemma nonzero_or ns : (exists z, In (Some z) ns /\ Qeq z 0) \/ (forall m, In (Some m) ns -> ~ Qeq m 0).
  Proof.
    induction ns as [|n ns IH]; [right; intros m []|]. destruct IH as [(z & H1 & H2)|IH].
    - left. exists z. split; [now right|exact H2].
    - destruct n as [m|].
      + destruct (Qeq_dec m 0) as [E|E]; [left; exists m; split; [now left|exact E]|].
        right. intros m' [H|H]; [inversion H; subst; exact E|auto].
      + right. intros m' [H|H]; [discriminate|auto].
  Qed.

  Lemma calculate_cost_errors bound p args :
    ok_or (size_error (fun p' n => p' = p /\ n = length args)) (calculate_cost find bound (VTuple (VStr p :: args))).
  Proof.
    unfold calculate_cost. cbn [first elements obind relations_of tl].
    apply ok_or_bind; [|intros [|c t] _; exact I]. apply ok_or_omap. intros r Hr. unfold relation_cost.
    destruct (z_relation r) as [n|] eqn:Er; [|exact I].
    destruct (Nat.eqb _ _) eqn:El.
    - cbn zeta. destruct (Qeq_bool _ 0) eqn:E; [|exact I]. cbn. right. split; auto.
      exists p, (length args). split; [auto|]. apply Qeq_bool_eq in E.
      destruct (nonzero_or (z_arguments r)) as [(z & Hz & Hq)|Hn].
      + exists r, z. rewrite Er. repeat split; auto. discriminate.
      + exfalso. revert E. now apply size_product_nonzero.
    - apply Nat.eqb_neq in El. cbn. left. split; auto. exists p, (length args). split; [auto|].
      exists r. rewrite Er. repeat split; auto. discriminate.
  Qed.

  Lemma proper_body p args b : proper (VTuple (VStr p :: args)) -> In (VList b) args -> is_body (VList b) = true ->
    forall x, In x b -> proper x.
  Proof.
    intros Hp Hin Hb. inversion Hp as [? ? H]; subst. destruct (H b Hin) as [G|G]; auto.
    destruct b as [|[] b]; try discriminate. destruct (G (VTuple l)); now left.
  Qed.

  Lemma sort_depth_errors d : forall bound l, depth (VList l) <= d -> (forall x, In x l -> proper x) ->
    ok_or (size_error (fun p n => occurs_among p n l)) (sort_depth find d bound l).
  Proof.
    induction d as [|d IH]; intros bound l Hd Hs; [cbn [depth] in Hd; lia|]. cbn [sort_depth].
    assert (Hin : forall x, In x l -> depth x <= d).
    { intros x Hx. apply depth_in in Hx. cbn [depth] in Hd. lia. }
    assert (G : forall n bound todo, length todo <= n -> (forall x, In x todo -> depth x <= d) ->
              (forall x, In x todo -> proper x) ->
              ok_or (size_error (fun p n => occurs_among p n todo)) (sort_rest find (sort_depth find d) n bound todo)).
    { clear bound l Hd Hin Hs. induction n as [|n IHn]; intros bound [|a todo] Hl Ht Hs; cbn [sort_rest];
        try exact I; try (cbn in Hl; lia).
      apply ok_or_bind.
      { unfold rank. apply ok_or_bind; [|intros; exact I]. apply ok_or_omap. intros x Hx.
        apply ok_or_bind; [|intros; exact I]. pose proof (Hs x Hx) as Hp. inversion Hp as [p args Hb]; subst.
        eapply ok_or_weaken; [|apply calculate_cost_errors]. intros e. apply size_error_weaken.
        intros p' m (-> & ->). eexists. split; [exact Hx|]. now constructor. }
      intros sorted Er. apply rank_ok in Er as (-> & _).
      pose proof (sort_by_perm (cost_of find bound) (a :: todo)) as Hp.
      destruct (sort_by (cost_of find bound) (a :: todo)) as [|x rest].
      { apply Permutation_length in Hp. discriminate. }
      assert (Hi : forall y, In y (x :: rest) -> In y (a :: todo)).
      { intros y Hy. eapply Permutation_in; [symmetry; exact Hp|exact Hy]. }
      assert (Hxt : In x (a :: todo)) by (apply Hi; now left).
      pose proof (Ht x Hxt) as Hx. pose proof (Hs x Hxt) as Hpx.
      apply ok_or_bind.
      { inversion Hpx as [p args Hb]; subst. cbn [sort_arguments]. apply ok_or_bind; [|intros; exact I].
        apply ok_or_omap. intros t Hin. unfold sort_argument. destruct t as [| | | | | | | |b|]; try exact I.
        destruct (is_body (VList b)) eqn:Eb; [|exact I].
        destruct Hin as [Hin|Hin]; [discriminate|].
        apply ok_or_bind; [|intros; exact I].
        eapply ok_or_weaken; [|apply IH].
        - intros e. apply size_error_weaken. intros p' m (y & Hy & Ho). eexists. split; [exact Hxt|].
          econstructor; eauto.
        - assert (Hin' : In (VList b) (VStr p :: args)) by now right.
          apply depth_in in Hin'. cbn [depth] in Hx, Hin'. cbn [depth]. lia.
        - eapply proper_body; eauto. }
      intros x' _. apply ok_or_bind; [|intros; exact I].
      eapply ok_or_weaken; [|apply IHn].
      - intros e. apply size_error_weaken. intros p m (y & Hy & Ho). exists y. split; [apply Hi; now right|exact Ho].
      - apply Permutation_length in Hp. cbn in Hp, Hl. lia.
      - intros y Hy. apply Ht, Hi. now right.
      - intros y Hy. apply Hs, Hi. now right. }
    apply G; auto.
  Qed.
  Lemma sort_errors l : (forall x, In x l -> proper x) ->
    ok_or (size_error (fun p n => occurs_among p n l)) (sort find l).
  Proof. apply sort_depth_errors. lia. Qed.

  (** *** A relation that does not fit is always found *)

  Lemma calculate_cost_fits bound p args c : calculate_cost find bound (VTuple (VStr p :: args)) = Ok c ->
    ~ misfit find p (length args).
  Proof.
    unfold calculate_cost. cbn [first elements obind relations_of tl]. intros H.
    apply OptimizerProofs2.obind_ok in H as (cs & Hc & _). intros (r & Hr & Hz & Hl).
    apply omap_ok in Hc. assert (G : exists c, relation_cost bound args r = Ok c).
    { revert Hr. clear -Hc. induction Hc as [|x y l m Hxy _ IH]; intros []; subst; eauto. }
    destruct G as (c' & G). unfold relation_cost in G. destruct (z_relation r); [|auto].
    destruct (Nat.eqb _ _) eqn:E; [|discriminate]. apply Nat.eqb_eq in E. congruence.
  Qed.

  Lemma sort_depth_fits d : forall bound l r, sort_depth find d bound l = Ok r -> (forall x, In x l -> proper x) ->
    forall p n, occurs_among p n l -> ~ misfit find p n.
  Proof.
    induction d as [|d IH]; intros bound l r H Hs; [discriminate|]. cbn [sort_depth] in H.
    revert H. generalize (length l) as k. intros k. revert bound l r Hs.
    induction k as [|k IHk]; intros bound [|a todo] r Hs H p n (y & Hy & Ho); cbn [sort_rest] in H; try (destruct Hy; fail);
      [discriminate|].
    apply OptimizerProofs2.obind_ok in H as (sorted & Er & H).
    assert (Hrank : forall x, In x (a :: todo) -> exists c, calculate_cost find bound x = Ok c).
    { unfold rank in Er. apply OptimizerProofs2.obind_ok in Er as (rs & Hrs & _). apply omap_ok in Hrs. clear -Hrs.
      intros x Hx. induction Hrs as [|x' y l m Hxy _ IH]; [destruct Hx|]. destruct Hx as [<-|Hx]; auto.
      apply OptimizerProofs2.obind_ok in Hxy as (c & Hc & _). eauto. }
    apply rank_ok in Er as (-> & _).
    pose proof (sort_by_perm (cost_of find bound) (a :: todo)) as Hp.
    destruct (sort_by (cost_of find bound) (a :: todo)) as [|x rest]; [discriminate|].
    apply OptimizerProofs2.obind_ok in H as (x' & Hx' & H). apply OptimizerProofs2.obind_ok in H as (rest' & Hr & _).
    assert (Hi : forall y, In y (x :: rest) -> In y (a :: todo)).
    { intros z Hz. eapply Permutation_in; [symmetry; exact Hp|exact Hz]. }
    pose proof (Permutation_in _ Hp Hy) as Hy'. destruct Hy' as [<-|Hy'].
    - pose proof (Hs x Hy) as Hpx. destruct (Hrank x Hy) as (c & Hc). inversion Ho as [args Hl E|h args b z Hb Hz Hoz E]; subst.
      + eapply calculate_cost_fits; eauto.
      + inversion Hpx as [p' args' Hb' E']; subst. cbn [sort_arguments] in Hx'.
        apply OptimizerProofs2.obind_ok in Hx' as (l' & Hl' & _). apply omap_ok in Hl'.
        assert (Hin : In (VList b) (VStr p' :: args)) by now right.
        assert (G : exists u, sort_argument (sort_depth find d) bound (VList b) = Ok u).
        { revert Hin. clear -Hl'. induction Hl' as [|x y l m Hxy _ IH]; intros []; subst; eauto. }
        destruct G as (u & G). unfold sort_argument in G. destruct (is_body (VList b)) eqn:Eb.
        * apply OptimizerProofs2.obind_ok in G as (b' & G & _). eapply IH; eauto; [eapply proper_body; eauto|].
          exists z. auto.
        * exfalso. destruct (Hb' b Hb) as [K|K]; pose proof (K z Hz) as Kz.
          -- destruct b as [|z' b]; [destruct Hz|]. pose proof (K z' (or_introl eq_refl)) as K'. inversion K'; subst. discriminate.
          -- inversion Hoz; subst; destruct Kz.
    - eapply IHk; [|exact Hr|exists y; eauto]. intros z Hz. apply Hs, Hi. now right.
  Qed.
End Errors.

(** ** The name resolvers *)

Lemma proper_not_empty x : proper x -> match x with VTuple [] => false | _ => true end = true.
Proof. intros []; reflexivity. Qed.
Lemma simple_is_resolver x : simple_value x -> is_resolver x = false.
Proof. destruct x; cbn; tauto. Qed.
Lemma simple_without x : simple_value x -> without_resolvers x = x.
Proof. destruct x; cbn; tauto. Qed.
Lemma simple_resolvers x : simple_value x -> resolvers x = [].
Proof. destruct x; cbn; tauto. Qed.

Section ProperInd.
  Variable P : value -> Prop.
  Hypothesis step : forall p args,
    (forall b, In (VList b) args -> (forall x, In x b -> proper x /\ P x) \/ (forall x, In x b -> simple_value x)) ->
    P (VTuple (VStr p :: args)).
  Fixpoint proper_ind' v (H : proper v) {struct H} : P v :=
    match H in proper v' return P v' with
    | proper_intro p args Hb =>
        step p args (fun b Hin =>
          match Hb b Hin with
          | or_introl G => or_introl (fun x Hx => conj (G x Hx) (proper_ind' x (G x Hx)))
          | or_intror G => or_intror G
          end)
    end.
End ProperInd.

Definition drop_args (args : list value) : list value :=
  map (fun term => match term with VList _ => without_resolvers term | _ => term end) args.
Lemma without_atom p args : without_resolvers (VTuple (VStr p :: args)) = VTuple (VStr p :: drop_args args).
Proof. reflexivity. Qed.
Lemma without_body b : without_resolvers (VList b) = VList (others b).
Proof. reflexivity. Qed.
Lemma resolvers_atom p args x : In x (resolvers (VTuple (VStr p :: args))) <->
  exists b, In (VList b) args /\ In x (resolvers (VList b)).
Proof.
  change (resolvers (VTuple (VStr p :: args))) with
    (flat_map (fun term => match term with VList _ => resolvers term | _ => [] end) args).
  rewrite in_flat_map. split.
  - intros (t & Ht & Hx). destruct t; try (destruct Hx; fail). eauto.
  - intros (b & Hb & Hx). exists (VList b). auto.
Qed.
Lemma resolvers_body b x : In x (resolvers (VList b)) <->
  exists y, In y b /\ ((is_resolver y = true /\ x = y) \/ (is_resolver y = false /\ In x (resolvers y))).
Proof.
  cbn [resolvers]. rewrite in_flat_map. split.
  - intros (y & Hy & Hx). exists y. split; auto. destruct (is_resolver y); auto. destruct Hx as [->|[]]; auto.
  - intros (y & Hy & [(E & ->)|(E & Hx)]); exists y; rewrite E; split; auto. now left.
Qed.
Lemma others_in b x : In x (others b) <-> exists y, In y b /\ is_resolver y = false /\ x = without_resolvers y.
Proof.
  unfold others. rewrite in_flat_map. split.
  - intros (y & Hy & Hx). exists y. destruct (is_resolver y); [destruct Hx|]. destruct Hx as [<-|[]]; auto.
  - intros (y & Hy & E & ->). exists y. rewrite E. split; auto. now left.
Qed.
Lemma drop_args_list args c : In (VList c) (drop_args args) <-> exists b, In (VList b) args /\ c = others b.
Proof.
  unfold drop_args. rewrite in_map_iff. split.
  - intros (t & E & Ht). destruct t; try discriminate. rewrite without_body in E. inversion E; subst. eauto.
  - intros (b & Hb & ->). exists (VList b). auto.
Qed.
Lemma drop_args_length args : length (drop_args args) = length args.
Proof. apply map_length. Qed.

Lemma proper_no_empty_atom x : proper x -> no_empty_atom x = true.
Proof.
  induction 1 as [p args Hb] using proper_ind'. cbn [no_empty_atom forallb andb].
  apply forallb_forall. intros t Ht. destruct t as [| | | | | | | |b|]; try reflexivity.
  cbn [no_empty_atom]. apply forallb_forall. intros y Hy.
  destruct (Hb b Ht) as [G|G]; specialize (G y Hy).
  - destruct G as (G1 & G2). rewrite G2, (proper_not_empty y G1). apply orb_true_r.
  - destruct y; try (destruct G; fail); reflexivity.
Qed.
Lemma propers_no_empty_atom l : (forall x, In x l -> proper x) -> no_empty_atom (VList l) = true.
Proof.
  intros H. cbn [no_empty_atom]. apply forallb_forall. intros y Hy.
  rewrite (proper_no_empty_atom y (H y Hy)), (proper_not_empty y (H y Hy)). apply orb_true_r.
Qed.

Lemma proper_without x : proper x -> proper (without_resolvers x).
Proof.
  induction 1 as [p args Hb] using proper_ind'. rewrite without_atom. constructor. intros c Hc.
  apply drop_args_list in Hc as (b & Hin & ->). destruct (Hb b Hin) as [G|G]; [left|right]; intros y Hy;
    apply others_in in Hy as (z & Hz & _ & ->).
  - now apply G.
  - rewrite simple_without; auto.
Qed.
Lemma proper_resolvers x : proper x -> forall y, In y (resolvers x) -> proper y.
Proof.
  induction 1 as [p args Hb] using proper_ind'. intros y Hy. apply resolvers_atom in Hy as (b & Hin & Hy).
  apply resolvers_body in Hy as (z & Hz & Hy). destruct (Hb b Hin) as [G|G]; specialize (G z Hz).
  - destruct G as (G1 & G2). destruct Hy as [(_ & ->)|(_ & Hy)]; auto.
  - destruct Hy as [(E & _)|(_ & Hy)]; [rewrite simple_is_resolver in E; [discriminate|auto]|].
    rewrite simple_resolvers in Hy; auto. destruct Hy.
Qed.

(** the same atoms occur, before and after *)
Lemma occurs_split x p n : proper x ->
  (occurs p n x <-> occurs p n (without_resolvers x) \/ occurs_among p n (resolvers x)).
Proof.
  induction 1 as [q args Hb] using proper_ind'. rewrite without_atom. split.
  - intros H. inversion H as [args' Hl E|h args' b y Hin Hy Ho E]; subst.
    + left. constructor. apply drop_args_length.
    + destruct (is_resolver y) eqn:Er.
      * right. exists y. split; auto. apply resolvers_atom. exists b. split; auto. apply resolvers_body. exists y. auto.
      * destruct (Hb b Hin) as [G|G]; specialize (G y Hy).
        -- destruct G as (_ & G). apply G in Ho as [Ho|(z & Hz & Ho)].
           ++ left. apply occurs_in with (b := others b) (x := without_resolvers y); auto.
              ** apply drop_args_list. eauto.
              ** apply others_in. eauto.
           ++ right. exists z. split; auto. apply resolvers_atom. exists b. split; auto. apply resolvers_body. exists y. auto.
        -- inversion Ho; subst; destruct G.
  - intros [H|(y & Hy & Ho)].
    + inversion H as [args' Hl E|h args' c y Hin Hy Ho E]; subst.
      * rewrite drop_args_length. now constructor.
      * apply drop_args_list in Hin as (b & Hin & ->). apply others_in in Hy as (z & Hz & Er & ->).
        apply occurs_in with (b := b) (x := z); auto. destruct (Hb b Hin) as [G|G]; specialize (G z Hz).
        -- apply G. auto.
        -- now rewrite simple_without in Ho.
    + apply resolvers_atom in Hy as (b & Hin & Hy). apply resolvers_body in Hy as (z & Hz & Hy).
      apply occurs_in with (b := b) (x := z); auto. destruct Hy as [(_ & ->)|(_ & Hy)]; auto.
      destruct (Hb b Hin) as [G|G]; specialize (G z Hz).
      * apply G. right. exists y. auto.
      * rewrite simple_resolvers in Hy; auto. destruct Hy.
Qed.

Lemma front_proper l : (forall x, In x l -> proper x) ->
  exists r, front l = Ok r /\ (forall x, In x r -> proper x) /\
    forall p n, occurs_among p n r <-> occurs_among p n l.
Proof.
  intros H. rewrite front_spec, propers_no_empty_atom by auto. eexists. split; [reflexivity|].
  split.
  - intros x Hx. apply in_app_or in Hx as [Hx|Hx].
    + apply resolvers_body in Hx as (y & Hy & [(_ & ->)|(_ & Hx)]); auto. eapply proper_resolvers; eauto.
    + apply others_in in Hx as (y & Hy & _ & ->). apply proper_without; auto.
  - intros p n. split.
    + intros (x & Hx & Ho). apply in_app_or in Hx as [Hx|Hx].
      * apply resolvers_body in Hx as (y & Hy & [(_ & ->)|(_ & Hx)]); [exists y; auto|].
        exists y. split; auto. apply occurs_split; [auto|]. right. exists x. auto.
      * apply others_in in Hx as (y & Hy & _ & ->). exists y. split; auto. apply occurs_split; auto.
    + intros (x & Hx & Ho). destruct (is_resolver x) eqn:Er.
      * exists x. split; auto. apply in_or_app. left. apply resolvers_body. exists x. auto.
      * apply occurs_split in Ho as [Ho|(y & Hy & Ho)]; auto.
        -- eexists. split; [|exact Ho]. apply in_or_app. right. apply others_in. eauto.
        -- exists y. split; auto. apply in_or_app. left. apply resolvers_body. exists x. auto.
Qed.

(** ** The optimizer *)

Lemma optimize_errors find l roots : (forall x, In x l -> proper x) ->
  ok_or (size_error find (fun p n => occurs_among p n l)) (optimize find l roots).
Proof.
  intros H. unfold optimize. destruct (front_proper l H) as (r & -> & Hr & Ho). cbn [obind].
  apply ok_or_bind.
  - eapply ok_or_weaken; [|apply sort_errors, Hr]. intros e. apply size_error_weaken. intros p n. apply Ho.
  - intros s _. apply ok_or_bind; [|intros; exact I]. destruct (isolate_total s roots) as (m & ->). exact I.
Qed.
Lemma optimize_fits find l roots passes : (forall x, In x l -> proper x) -> optimize find l roots = Ok passes ->
  forall p n, occurs_among p n l -> ~ misfit find p n.
Proof.
  intros H E p n Ho. unfold optimize in E. destruct (front_proper l H) as (r & Ef & Hr & Ho'). rewrite Ef in E. cbn [obind] in E.
  apply OptimizerProofs2.obind_ok in E as (s & Es & _). eapply sort_depth_fits; eauto. now apply Ho'.
Qed.
