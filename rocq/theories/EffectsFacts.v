(** * Facts about the effect monad *)

From Coq Require Import List Bool Lia.
From Verif Require Import Py Effects.
Import ListNotations.

Section Facts.
  Context {W : Type}.

  Lemma bind_ok {A B} (m : M W A) (f : A -> M W B) w b w' :
    bind m f w = (Ok b, w') -> exists a w1, m w = (Ok a, w1) /\ f a w1 = (Ok b, w').
  Proof.
    unfold bind. destruct (m w) as [[a|e|] w1] eqn:E; intros H; try discriminate.
    eauto.
  Qed.

  Lemma bind_ok_intro {A B} (m : M W A) (f : A -> M W B) w a w1 :
    m w = (Ok a, w1) -> bind m f w = f a w1.
  Proof. unfold bind. now intros ->. Qed.

  Lemma ret_ok {A} (a b : A) (w w' : W) : ret a w = (Ok b, w') -> a = b /\ w = w'.
  Proof. unfold ret. now intros [= -> ->]. Qed.

  Lemma foldM_inv {A B} (Inv : B -> Prop) (f : B -> A -> M W B) l :
    (forall acc x w acc' w', In x l -> Inv acc -> f acc x w = (Ok acc', w') -> Inv acc') ->
    forall acc w r w', foldM f acc l w = (Ok r, w') -> Inv acc -> Inv r.
  Proof.
    induction l as [|x l IH]; simpl; intros Hf acc w r w' H Hi.
    - apply ret_ok in H as [<- _]. exact Hi.
    - apply bind_ok in H as (acc' & w1 & H1 & H2).
      eapply IH; [|exact H2|]; eauto.
  Qed.

  Lemma foldM_ext {A B} (f g : B -> A -> M W B) l :
    (forall acc x w, In x l -> f acc x w = g acc x w) ->
    forall acc w, foldM f acc l w = foldM g acc l w.
  Proof.
    induction l as [|x l IH]; simpl; intros H acc w; auto.
    unfold bind. rewrite H by auto. destruct (g acc x w) as [[a|e|] w1]; auto.
  Qed.

  (** the state after the call is the state before it *)
  Definition preserves {A} (m : M W A) : Prop := forall w, snd (m w) = w.

  Lemma preserves_ret {A} (a : A) : preserves (ret a).
  Proof. intros w; reflexivity. Qed.
  Lemma preserves_throw {A} e : preserves (@throw W A e).
  Proof. intros w; reflexivity. Qed.
  Lemma preserves_no_fuel {A} : preserves (@no_fuel W A).
  Proof. intros w; reflexivity. Qed.
  Lemma preserves_get : preserves (@get W).
  Proof. intros w; reflexivity. Qed.
  Lemma preserves_or_throw {A} e (o : option A) : preserves (@or_throw W A e o).
  Proof. destruct o; intros w; reflexivity. Qed.
  Lemma preserves_bind {A B} (m : M W A) (f : A -> M W B) :
    preserves m -> (forall a, preserves (f a)) -> preserves (bind m f).
  Proof.
    intros Hm Hf w. unfold bind. specialize (Hm w).
    destruct (m w) as [[a|e|] w1]; simpl in *; subst; auto. apply Hf.
  Qed.
  (** a variant that knows the result came from [m] *)
  Lemma preserves_bind_ok {A B} (m : M W A) (f : A -> M W B) :
    preserves m -> (forall a w, m w = (Ok a, w) -> preserves (f a)) -> preserves (bind m f).
  Proof.
    intros Hm Hf w. unfold bind. specialize (Hm w).
    destruct (m w) as [[a|e|] w1] eqn:E; simpl in *; subst; auto. eapply Hf; eauto.
  Qed.
  Lemma preserves_foldM {A B} (f : B -> A -> M W B) l :
    (forall acc x, In x l -> preserves (f acc x)) -> forall acc, preserves (foldM f acc l).
  Proof.
    induction l as [|x l IH]; simpl; intros H acc.
    - apply preserves_ret.
    - apply preserves_bind; auto.
  Qed.

  (** [m] finishes and [m'] finishes in the same way *)
  Definition refines {A} (m m' : M W A) : Prop :=
    forall w, fst (m w) <> OutOfFuel -> m' w = m w.

  Lemma refines_refl {A} (m : M W A) : refines m m.
  Proof. intros w _; reflexivity. Qed.
  Lemma refines_no_fuel {A} (m : M W A) : refines no_fuel m.
  Proof. intros w H; now destruct H. Qed.
  Lemma refines_trans {A} (a b c : M W A) : refines a b -> refines b c -> refines a c.
  Proof.
    intros H H' w E. rewrite <- (H w E). apply H'. now rewrite (H w E).
  Qed.
  Lemma refines_bind {A B} (m m' : M W A) (f f' : A -> M W B) :
    refines m m' -> (forall a, refines (f a) (f' a)) -> refines (bind m f) (bind m' f').
  Proof.
    intros Hm Hf w. unfold bind. specialize (Hm w).
    destruct (m w) as [[a|e|] w1] eqn:E; simpl in *; intros H.
    - rewrite Hm by discriminate. apply Hf. exact H.
    - rewrite Hm by discriminate. reflexivity.
    - congruence.
  Qed.
  Lemma refines_foldM {A B} (f f' : B -> A -> M W B) l :
    (forall acc x, In x l -> refines (f acc x) (f' acc x)) ->
    forall acc, refines (foldM f acc l) (foldM f' acc l).
  Proof.
    induction l as [|x l IH]; simpl; intros H acc.
    - apply refines_refl.
    - apply refines_bind; auto.
  Qed.
End Facts.

Ltac inv_bind H :=
  let a := fresh "a" in let w1 := fresh "w" in let H1 := fresh "E" in
  apply bind_ok in H as (a & w1 & H1 & H).

(** splits a hypothesis [bind ... w = (Ok _, _)] as far as possible *)
Ltac inv_ret H := apply ret_ok in H; destruct H as [? ?]; subst.
