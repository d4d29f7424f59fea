(** * Facts about [atom_variables] and [bind_variables] *)

From Coq Require Import ZArith String List Bool Lia.
From Verif Require Import Py PyFacts Atoms.
Import ListNotations.
Local Open Scope list_scope.

Lemma add_name_In s x y : In y (add_name s x) <-> In y s \/ y = x.
Proof.
  unfold add_name. destruct (existsb (String.eqb x) s) eqn:E.
  - split; auto. intros [H| ->]; auto. apply existsb_exists in E as (z & Hz & Ez).
    apply String.eqb_eq in Ez. now subst.
  - rewrite in_app_iff. simpl. intuition.
Qed.

Lemma fold_add_name_In l : forall s y, In y (fold_left add_name l s) <-> In y s \/ In y l.
Proof.
  induction l as [|x l IH]; simpl; intros s y; [tauto|].
  rewrite IH, add_name_In. intuition.
Qed.

Lemma fold_vars_In l : forall s y,
  In y (fold_left (fun s a => fold_left add_name (atom_variables a) s) l s)
  <-> In y s \/ exists a, In a l /\ In y (atom_variables a).
Proof.
  induction l as [|x l IH]; simpl; intros s y.
  - split; auto. intros [H|(a & [] & _)]; auto.
  - rewrite IH, fold_add_name_In. split.
    + intros [[H|H]|(a & Ha & Hy)]; eauto.
    + intros [H|(a & [->|Ha] & Hy)]; eauto.
Qed.

Lemma atoms_variables_In l y :
  In y (atoms_variables l) <-> exists a, In a l /\ In y (atom_variables a).
Proof.
  unfold atoms_variables. rewrite fold_vars_In. split; auto. intros [[]|]; auto.
Qed.

Lemma atom_variables_tuple l y :
  In y (atom_variables (VTuple l)) <-> exists a, In a l /\ In y (atom_variables a).
Proof. simpl. rewrite fold_vars_In. split; auto. intros [[]|]; auto. Qed.

Lemma atom_variables_list l y :
  In y (atom_variables (VList l)) <-> exists a, In a l /\ In y (atom_variables a).
Proof. simpl. rewrite fold_vars_In. split; auto. intros [[]|]; auto. Qed.

Lemma NoDup_add_name s x : NoDup s -> NoDup (add_name s x).
Proof.
  unfold add_name. destruct (existsb (String.eqb x) s) eqn:E; auto.
  intros H. apply NoDup_rev in H. rewrite <- (rev_involutive (s ++ [x])).
  apply NoDup_rev. rewrite rev_app_distr. simpl. constructor; auto.
  rewrite <- in_rev. intros F. assert (existsb (String.eqb x) s = true); [|congruence].
  apply existsb_exists. exists x. split; auto. apply String.eqb_refl.
Qed.

Lemma plain_no_variables v : plain v = true -> forall x, ~ In x (atom_variables v).
Proof.
  induction v using value_ind'; intros Hp x; try (simpl; tauto); try discriminate.
  - rewrite atom_variables_tuple. intros (a & Ha & Hx). rewrite Forall_forall in H.
    simpl in Hp. rewrite forallb_forall in Hp. eapply H; eauto.
  - rewrite atom_variables_list. intros (a & Ha & Hx). rewrite Forall_forall in H.
    simpl in Hp. rewrite forallb_forall in Hp. eapply H; eauto.
Qed.

Lemma bind_variables_no_variables v b :
  (forall x, In x (atom_variables v) -> bget x b = None) -> bind_variables v b = v.
Proof.
  induction v using value_ind'; simpl; intros Hx; try reflexivity.
  - rewrite Hx; auto.
  - f_equal. rewrite <- (map_id l) at 2. apply map_ext_in. intros a Ha.
    rewrite Forall_forall in H. apply H; auto. intros x Hi. apply Hx.
    apply (atom_variables_tuple l). eauto.
  - f_equal. rewrite <- (map_id l) at 2. apply map_ext_in. intros a Ha.
    rewrite Forall_forall in H. apply H; auto. intros x Hi. apply Hx.
    apply (atom_variables_list l). eauto.
Qed.
