(** * Facts about the Python value model of [Py] *)

From Coq Require Import ZArith QArith Qreduction String Ascii List Bool Lia.
From Verif Require Import Py.
Import ListNotations.
Local Close Scope Q_scope.
Local Open Scope nat_scope.
Local Open Scope string_scope.
Local Open Scope list_scope.

(** ** py_eq *)

Lemma py_eq_tuple l m : py_eq (VTuple l) (VTuple m) = forall2b py_eq l m.
Proof. simpl. revert m; induction l as [|x l IH]; intros [|y m]; simpl; auto; now rewrite IH. Qed.

Lemma py_eq_list l m : py_eq (VList l) (VList m) = forall2b py_eq l m.
Proof. simpl. revert m; induction l as [|x l IH]; intros [|y m]; simpl; auto; now rewrite IH. Qed.

Lemma py_eq_tmpl a b c d :
  py_eq (VTmpl a b) (VTmpl c d) = forall2b py_eq a c && forall2b py_eq b d.
Proof.
  rewrite <- (py_eq_list a c), <- (py_eq_list b d). reflexivity.
Qed.

Lemma forall2b_refl {A} (f : A -> A -> bool) l :
  Forall (fun x => f x x = true) l -> forall2b f l l = true.
Proof. induction 1; simpl; auto. rewrite H; auto. Qed.

Lemma py_eq_refl v : py_eq v v = true.
Proof.
  induction v using value_ind'; try reflexivity;
    try (simpl; apply String.eqb_refl).
  - simpl. apply Qeq_bool_iff. reflexivity.
  - simpl. apply Qeq_bool_iff. reflexivity.
  - simpl. apply Qeq_bool_iff. reflexivity.
  - rewrite py_eq_tuple. apply forall2b_refl; auto.
  - rewrite py_eq_list. apply forall2b_refl; auto.
  - rewrite py_eq_tmpl, !forall2b_refl; auto.
Qed.

Lemma forall2b_sym l :
  Forall (fun x => forall y, py_eq x y = py_eq y x) l ->
  forall m, forall2b py_eq l m = forall2b py_eq m l.
Proof. induction 1; intros [|y m]; simpl; auto. now rewrite H, IHForall. Qed.

Lemma Qeq_bool_sym' p q : Qeq_bool p q = Qeq_bool q p.
Proof.
  destruct (Qeq_bool p q) eqn:E, (Qeq_bool q p) eqn:F; auto.
  - apply Qeq_bool_iff in E. symmetry in E. apply Qeq_bool_iff in E. congruence.
  - apply Qeq_bool_iff in F. symmetry in F. apply Qeq_bool_iff in F. congruence.
Qed.

Lemma py_eq_sym a b : py_eq a b = py_eq b a.
Proof.
  revert b; induction a using value_ind'; intros b0; destruct b0; try reflexivity;
    try (apply String.eqb_sym); try (apply Qeq_bool_sym').
  - rewrite !py_eq_tuple. now apply forall2b_sym.
  - rewrite !py_eq_list. now apply forall2b_sym.
  - rewrite !py_eq_tmpl. now rewrite (forall2b_sym _ H), (forall2b_sym _ H0).
Qed.

Lemma forall2b_trans l :
  Forall (fun x => forall y z, py_eq x y = true -> py_eq y z = true -> py_eq x z = true) l ->
  forall m n, forall2b py_eq l m = true -> forall2b py_eq m n = true -> forall2b py_eq l n = true.
Proof.
  induction 1; intros [|y m] [|z n]; simpl; auto; try discriminate.
  rewrite !andb_true_iff. intros [] []. split; eauto.
Qed.

Definition is_num (v : value) : bool :=
  match v with VBool _ | VInt _ | VFloat _ => true | _ => false end.

Lemma py_eq_num a b : is_num a = true ->
  py_eq a b = true ->
  is_num b = true /\ exists p q, num_of a = Some p /\ num_of b = Some q /\ Qeq p q.
Proof.
  intros Ha He. destruct a; try discriminate; destruct b; simpl in He; try discriminate;
    (split; [reflexivity|]); do 2 eexists; (split; [reflexivity|]); (split; [reflexivity|]);
    now apply Qeq_bool_iff.
Qed.

Lemma py_eq_num_intro a b p q :
  num_of a = Some p -> num_of b = Some q -> Qeq p q -> py_eq a b = true.
Proof.
  intros Ha Hb He. destruct a; simpl in Ha; try discriminate; simpl; rewrite Hb;
    apply Qeq_bool_iff; congruence.
Qed.

Lemma py_eq_trans a b c : py_eq a b = true -> py_eq b c = true -> py_eq a c = true.
Proof.
  revert b c; induction a using value_ind'; intros b0 c0 Hab Hbc.
  - destruct b0; try discriminate. exact Hbc.
  - apply py_eq_num in Hab as (Hb & p & q & E1 & E2 & E3); [|reflexivity].
    apply py_eq_num in Hbc as (Hc & p' & q' & F1 & F2 & F3); [|assumption].
    rewrite E2 in F1. injection F1 as <-.
    eapply py_eq_num_intro; eauto. etransitivity; eauto.
  - apply py_eq_num in Hab as (Hb & p & q & E1 & E2 & E3); [|reflexivity].
    apply py_eq_num in Hbc as (Hc & p' & q' & F1 & F2 & F3); [|assumption].
    rewrite E2 in F1. injection F1 as <-.
    eapply py_eq_num_intro; eauto. etransitivity; eauto.
  - apply py_eq_num in Hab as (Hb & p & q' & E1 & E2 & E3); [|reflexivity].
    apply py_eq_num in Hbc as (Hc & p' & q'' & F1 & F2 & F3); [|assumption].
    rewrite E2 in F1. injection F1 as <-.
    eapply py_eq_num_intro; eauto. etransitivity; eauto.
  - destruct b0; try discriminate. simpl in Hab. apply String.eqb_eq in Hab as <-. exact Hbc.
  - destruct b0; try discriminate. simpl in Hab. apply String.eqb_eq in Hab as <-. exact Hbc.
  - destruct b0; try discriminate. simpl in Hab. apply String.eqb_eq in Hab as <-. exact Hbc.
  - destruct b0; try discriminate. destruct c0; try discriminate.
    rewrite py_eq_tuple in *. eapply forall2b_trans; eauto.
  - destruct b0; try discriminate. destruct c0; try discriminate.
    rewrite py_eq_list in *. eapply forall2b_trans; eauto.
  - destruct b0; try discriminate. destruct c0; try discriminate.
    rewrite py_eq_tmpl in *. rewrite andb_true_iff in *. destruct Hab, Hbc.
    split; eapply forall2b_trans; eauto.
Qed.

Lemma py_in_spec x l : py_in x l = true <-> exists y, In y l /\ py_eq x y = true.
Proof. unfold py_in. apply existsb_exists. Qed.

(** ** bindings *)

Lemma bget_bset_same k v b : bget k (bset k v b) = Some v.
Proof.
  induction b as [|[k' v'] t IH]; simpl.
  - now rewrite String.eqb_refl.
  - destruct (String.eqb k k') eqn:E; simpl; rewrite E; auto.
Qed.

Lemma bget_bset_other k k' v b : k <> k' -> bget k' (bset k v b) = bget k' b.
Proof.
  intros Hn. induction b as [|[k1 v1] t IH]; simpl.
  - destruct (String.eqb_spec k' k); congruence.
  - destruct (String.eqb_spec k k1); simpl.
    + subst. destruct (String.eqb_spec k' k1); congruence.
    + now rewrite IH.
Qed.

Lemma bget_bset k k' v b :
  bget k' (bset k v b) = if String.eqb k k' then Some v else bget k' b.
Proof.
  destruct (String.eqb_spec k k') as [->|].
  - apply bget_bset_same.
  - now apply bget_bset_other.
Qed.

Lemma bget_In_keys k b : bget k b <> None <-> In k (keys b).
Proof.
  induction b as [|[k1 v1] t IH]; simpl; [tauto|].
  destruct (String.eqb_spec k k1) as [->|].
  - split; auto. discriminate.
  - rewrite IH. split; [auto|]. intros [E|]; [congruence|auto].
Qed.

Lemma bget_None_keys k b : bget k b = None <-> ~ In k (keys b).
Proof.
  rewrite <- bget_In_keys. destruct (bget k b).
  - split; [discriminate|]. intros H. exfalso. apply H. discriminate.
  - split; [intros _ H; now apply H|auto].
Qed.

Definition dict_equiv (a b : binding) : Prop :=
  forall k, opt_eq (bget k a) (bget k b) = true.

Lemma dict_eq_spec a b : dict_eq a b = true <-> dict_equiv a b.
Proof.
  unfold dict_eq, dict_equiv. rewrite forallb_forall. split; intros H.
  - intros k. destruct (bget k a) eqn:Ea.
    + rewrite <- Ea. apply H. apply in_or_app; left. apply bget_In_keys. congruence.
    + destruct (bget k b) eqn:Eb; [|reflexivity].
      rewrite <- Ea, <- Eb. apply H. apply in_or_app; right. apply bget_In_keys. congruence.
  - intros k _. apply H.
Qed.

Lemma opt_eq_refl a : opt_eq a a = true.
Proof. destruct a; simpl; auto using py_eq_refl. Qed.
Lemma opt_eq_sym a b : opt_eq a b = opt_eq b a.
Proof. destruct a, b; simpl; auto using py_eq_sym. Qed.
Lemma opt_eq_trans a b c : opt_eq a b = true -> opt_eq b c = true -> opt_eq a c = true.
Proof. destruct a, b, c; simpl; try discriminate; eauto using py_eq_trans. Qed.

Lemma dict_equiv_refl a : dict_equiv a a.
Proof. intros k. apply opt_eq_refl. Qed.
Lemma dict_equiv_sym a b : dict_equiv a b -> dict_equiv b a.
Proof. intros H k. rewrite opt_eq_sym. apply H. Qed.
Lemma dict_equiv_trans a b c : dict_equiv a b -> dict_equiv b c -> dict_equiv a c.
Proof. intros H H' k. eapply opt_eq_trans; eauto. Qed.

Lemma dict_eq_refl a : dict_eq a a = true.
Proof. apply dict_eq_spec, dict_equiv_refl. Qed.
Lemma dict_eq_sym a b : dict_eq a b = dict_eq b a.
Proof.
  destruct (dict_eq a b) eqn:E, (dict_eq b a) eqn:F; auto;
    [apply dict_eq_spec, dict_equiv_sym, dict_eq_spec in E
    |apply dict_eq_spec, dict_equiv_sym, dict_eq_spec in F]; congruence.
Qed.
Lemma dict_eq_trans a b c : dict_eq a b = true -> dict_eq b c = true -> dict_eq a c = true.
Proof. rewrite !dict_eq_spec. apply dict_equiv_trans. Qed.

Lemma dict_in_spec r l : dict_in r l = true <-> exists x, In x l /\ dict_eq r x = true.
Proof. unfold dict_in. apply existsb_exists. Qed.

(** [r] contains every entry of [b] *)
Definition extends (b r : binding) : Prop :=
  forall k v, bget k b = Some v -> bget k r = Some v.

Lemma extends_refl b : extends b b.
Proof. intros k v H; exact H. Qed.
Lemma extends_trans a b c : extends a b -> extends b c -> extends a c.
Proof. intros H H' k v E. auto. Qed.
Lemma extends_bset b r k v : extends b r -> bget k b = None -> extends b (bset k v r).
Proof.
  intros H Hn k' v' E. rewrite bget_bset. destruct (String.eqb_spec k k') as [->|]; [congruence|auto].
Qed.

(** ** plain data: integers and strings, and nested containers of them *)

Fixpoint plain (v : value) : bool :=
  match v with
  | VInt _ | VStr _ => true
  | VTuple l | VList l => forallb plain l
  | _ => false
  end.

Lemma plain_not_none v : plain v = true -> is_none v = false.
Proof. destruct v; simpl; congruence. Qed.

Lemma forall2b_plain l :
  Forall (fun a => forall b, plain a = true -> plain b = true -> py_eq a b = true -> a = b) l ->
  forall m, forallb plain l = true -> forallb plain m = true ->
    forall2b py_eq l m = true -> l = m.
Proof.
  induction 1 as [|x l Hx Hl IH]; intros [|y m]; simpl; auto; try discriminate.
  rewrite !andb_true_iff. intros [] [] []. f_equal; auto.
Qed.

Lemma inject_Z_eq a b : Qeq (inject_Z a) (inject_Z b) -> a = b.
Proof. unfold Qeq, inject_Z; simpl. lia. Qed.

Lemma py_eq_plain a b : plain a = true -> plain b = true -> py_eq a b = true -> a = b.
Proof.
  revert b; induction a using value_ind'; intros b0 Ha Hb He; try discriminate.
  - destruct b0; try discriminate. simpl in He. apply Qeq_bool_iff in He.
    f_equal. now apply inject_Z_eq.
  - destruct b0; try discriminate. simpl in He. apply String.eqb_eq in He. now subst.
  - destruct b0; try discriminate. rewrite py_eq_tuple in He. f_equal.
    now apply forall2b_plain.
  - destruct b0; try discriminate. rewrite py_eq_list in He. f_equal.
    now apply forall2b_plain.
Qed.

Lemma py_eq_plain_iff a b : plain a = true -> plain b = true -> (py_eq a b = true <-> a = b).
Proof. intros Ha Hb; split; [now apply py_eq_plain|intros ->; apply py_eq_refl]. Qed.

(** every value in the dict is plain *)
Definition plain_binding (b : binding) : Prop :=
  forall k v, bget k b = Some v -> plain v = true.

Lemma dict_eq_plain a b : plain_binding a -> plain_binding b ->
  (dict_eq a b = true <-> forall k, bget k a = bget k b).
Proof.
  intros Ha Hb. rewrite dict_eq_spec. split; intros H k.
  - specialize (H k). destruct (bget k a) eqn:Ea, (bget k b) eqn:Eb; simpl in H; try discriminate; auto.
    f_equal. apply py_eq_plain; eauto.
  - rewrite (H k). apply opt_eq_refl.
Qed.
