(** * When the sort by cost has no error *)

From Coq Require Import ZArith QArith String List Bool Permutation Lia Arith.
From Verif Require Import Py Effects Atoms Earley Composer Optimizer OptimizerSpec OptimizerProofs OptimizerProofs2.
Import ListNotations.
Local Close Scope Q_scope.
Local Open Scope nat_scope.
Local Open Scope string_scope.
Local Open Scope list_scope.

Section Sized.
  Variable find : string -> list sizes.

  (** the sizes of a relation fit a number of arguments: one for each, none of
      them zero *)
  Definition sizes_fit (r : sizes) (args : list value) : Prop :=
    z_relation r = None \/
    (length (z_arguments r) = length args /\ forall n, In (Some n) (z_arguments r) -> ~ Qeq n 0).

  (** an atom with a name, whose relations have fitting sizes; the same for the
      atoms in its arguments *)
  Inductive sized : value -> Prop :=
  | sized_intro p args :
      (forall r, In r (find p) -> sizes_fit r args) ->
      (forall t b a, In t args -> body t b -> In a b -> sized a) ->
      sized (VTuple (VStr p :: args)).

  Lemma omap_total {A B} (f : A -> outcome B) l :
    (forall x, In x l -> exists y, f x = Ok y) -> exists m, omap f l = Ok m.
  Proof.
    induction l as [|x l IH]; intros H; [now exists []|].
    destruct (H x) as (y & Hy); [now left|]. destruct IH as (m & Hm); [intros; apply H; now right|].
    exists (y :: m). cbn [omap]. rewrite Hy. cbn [obind]. rewrite Hm. reflexivity.
  Qed.

  Lemma factor_nonzero bound a n : (forall m, n = Some m -> ~ Qeq m 0) -> ~ Qeq (factor bound a n) 0.
  Proof.
    intros H. destruct n as [m|]; cbn [factor]; [|discriminate]. specialize (H m eq_refl).
    destruct a; try exact H; try discriminate. destruct (name_in _ _); [exact H|discriminate].
  Qed.
  Lemma size_product_nonzero bound ns : forall args, (forall m, In (Some m) ns -> ~ Qeq m 0) ->
    ~ Qeq (size_product bound args ns) 0.
  Proof.
    induction ns as [|n ns IH]; intros [|a args] H; cbn [size_product]; try discriminate.
    intros E. apply Qmult_integral in E as [E|E].
    - revert E. apply factor_nonzero. intros m ->. apply H. now left.
    - revert E. apply IH. intros m Hm. apply H. now right.
  Qed.
  Lemma relation_cost_total bound args r : sizes_fit r args -> exists c, relation_cost bound args r = Ok c.
  Proof.
    unfold relation_cost. intros [->|[Hl Hn]]; [eexists; reflexivity|].
    destruct (z_relation r) as [n|]; [|eexists; reflexivity].
    rewrite Hl, Nat.eqb_refl. cbn zeta.
    destruct (Qeq_bool _ 0) eqn:E; [|eexists; reflexivity].
    apply Qeq_bool_eq in E. exfalso. revert E. now apply size_product_nonzero.
  Qed.
  Lemma calculate_cost_total bound a : sized a -> exists c, calculate_cost find bound a = Ok c.
  Proof.
    intros [p args Hf _]. unfold calculate_cost. cbn [first elements obind relations_of tl].
    destruct (omap_total (relation_cost bound args) (find p)) as (cs & ->).
    { intros r Hr. apply relation_cost_total, Hf, Hr. }
    cbn [obind]. destruct cs; eexists; reflexivity.
  Qed.
  Lemma rank_total bound todo : Forall sized todo -> exists m, rank find bound todo = Ok m.
  Proof.
    intros H. unfold rank.
    destruct (omap_total (fun atom => obind (calculate_cost find bound atom) (fun c => Ok (c, atom))) todo) as (m & E).
    { intros x Hx. rewrite Forall_forall in H. destruct (calculate_cost_total bound x (H x Hx)) as (c & ->).
      eexists; reflexivity. }
    rewrite E. cbn [obind]. eexists; reflexivity.
  Qed.

  Lemma sort_depth_total d : forall bound l, depth (VList l) <= d -> Forall sized l ->
    exists r, sort_depth find d bound l = Ok r.
  Proof.
    induction d as [|d IH]; intros bound l Hd Hs; [cbn [depth] in Hd; lia|]. cbn [sort_depth].
    assert (Hin : forall x, In x l -> depth x <= d).
    { intros x Hx. apply depth_in in Hx. cbn [depth] in Hd. lia. }
    assert (G : forall n bound todo, length todo <= n -> (forall x, In x todo -> depth x <= d) -> Forall sized todo ->
              exists r, sort_rest find (sort_depth find d) n bound todo = Ok r).
    { clear bound l Hd Hin Hs. induction n as [|n IHn]; intros bound [|a todo] Hl Ht Hs; cbn [sort_rest];
        try (eexists; reflexivity); try (cbn in Hl; lia).
      destruct (rank_total bound (a :: todo) Hs) as (sorted & Er). rewrite Er. cbn [obind].
      apply rank_ok in Er as (-> & _).
      pose proof (sort_by_perm (cost_of find bound) (a :: todo)) as Hp.
      destruct (sort_by (cost_of find bound) (a :: todo)) as [|x rest].
      { apply Permutation_length in Hp. discriminate. }
      assert (Hx : depth x <= d) by (apply Ht; eapply Permutation_in; [symmetry; exact Hp|now left]).
      rewrite Hp in Hs. inversion Hs as [|? ? Hsx Hsr]; subst.
      destruct Hsx as [p args Hf Hb].
      assert (Ha : exists x', sort_arguments (sort_depth find d) bound (VTuple (VStr p :: args)) = Ok x').
      { cbn [sort_arguments].
        destruct (omap_total (sort_argument (sort_depth find d) bound) (VStr p :: args)) as (m & ->).
        - intros t Hin. unfold sort_argument. destruct t as [| | | | | | | |b|]; try (eexists; reflexivity).
          destruct (is_body (VList b)) eqn:Eb; [|eexists; reflexivity].
          apply is_body_iff in Eb as (b' & Eb). inversion Eb; subst.
          destruct Hin as [Hin|Hin]; [discriminate|].
          destruct (IH bound (VTuple args0 :: atoms)) as (r & ->); [|rewrite Forall_forall; intros y Hy; eapply Hb; eauto|
            eexists; reflexivity].
          assert (Hin' : In (VList (VTuple args0 :: atoms)) (VStr p :: args)) by now right.
          apply depth_in in Hin'. cbn [depth] in Hx. lia.
        - cbn [obind]. eexists; reflexivity. }
      destruct Ha as (x' & ->). cbn [obind].
      destruct (IHn (bound ++ atom_variables x') rest) as (r & ->).
      - apply Permutation_length in Hp. cbn in Hp, Hl. lia.
      - intros y Hy. apply Ht. eapply Permutation_in; [symmetry; exact Hp|now right].
      - exact Hsr.
      - cbn [obind]. eexists; reflexivity. }
    apply G; auto.
  Qed.

  Lemma sort_total l : Forall sized l -> exists r, sort find l = Ok r.
  Proof. apply sort_depth_total. lia. Qed.
End Sized.
