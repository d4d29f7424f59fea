(** * First-order queries: facts about their meaning *)

From Coq Require Import ZArith String List Bool Lia Arith Ascii QArith.
From Verif Require Import Py PyFacts CoreProofs2 DatalogSpec FolSpec.
Import ListNotations.
Local Close Scope Q_scope.
Local Open Scope nat_scope.
Local Open Scope string_scope.
Local Open Scope list_scope.

(** ** induction on formulas *)

Section Induction.
  Variable P : fol -> Prop.
  Hypothesis P_atom : forall a, P (FAtom a).
  Hypothesis P_eq : forall t u, P (FEq t u).
  Hypothesis P_cmp : forall l t u, P (FCmp l t u).
  Hypothesis P_not : forall n q, Forall P q -> P (FNot n q).
  Hypothesis P_some : forall q, Forall P q -> P (FSome q).
  Hypothesis P_or : forall alts, Forall (Forall P) alts -> P (FOr alts).
  Hypothesis P_all : forall x range body, Forall P range -> Forall P body -> P (FAll x range body).
  Hypothesis P_count : forall x q, Forall P q -> P (FCount x q).
  Hypothesis P_det : forall c k q, Forall P q -> P (FDet c k q).

  Fixpoint fol_ind' (f : fol) : P f :=
    let fols := fix fols (q : list fol) : Forall P q :=
      match q with [] => Forall_nil _ | f :: q' => Forall_cons _ (fol_ind' f) (fols q') end in
    match f with
    | FAtom a => P_atom a
    | FEq t u => P_eq t u
    | FCmp l t u => P_cmp l t u
    | FNot n q => P_not n q (fols q)
    | FSome q => P_some q (fols q)
    | FOr alts => P_or alts ((fix each (l : list (list fol)) : Forall (Forall P) l :=
        match l with [] => Forall_nil _ | q :: l' => Forall_cons _ (fols q) (each l') end) alts)
    | FAll x range body => P_all x range body (fols range) (fols body)
    | FCount x q => P_count x q (fols q)
    | FDet c k q => P_det c k q (fols q)
    end.

  Lemma fols_ind q : Forall P q.
  Proof. induction q; constructor; auto using fol_ind'. Qed.
End Induction.

(** ** the meaning, unfolded *)

Section Meaning.
  Variable ext : string -> list value -> Prop.

  Definition possible B q s := exists s', const_assignment s' /\ same_on B s s' /\ all_hold ext B q s'.
  Definition number B q s n := exists rows : list (list value), NoDup rows /\ length rows = n /\
    forall row, In row rows <->
      exists s', const_assignment s' /\ same_on B s s' /\ all_hold ext B q s' /\ row = map s' (binds q).
  Definition in_range B x range s v :=
    exists s', const_assignment s' /\ same_on B s s' /\ s' x = v /\ all_hold ext B range s'.
  Fixpoint first_alt (B : list string) (alts : list (list fol)) (s : assignment) : Prop :=
    match alts with
    | [] => False
    | q :: rest => all_hold ext B q s \/ (~ possible B q s /\ first_alt B rest s)
    end.

  Lemma holds_not B n q s : holds ext B (FNot n q) s = ~ possible B q s.
  Proof. reflexivity. Qed.
  Lemma holds_some B q s : holds ext B (FSome q) s = possible B q s.
  Proof. reflexivity. Qed.
  Lemma holds_or B alts s : holds ext B (FOr alts) s <-> first_alt B alts s.
  Proof. induction alts as [|q alts IH]; [simpl; tauto|]. cbn [first_alt]. rewrite <- IH. reflexivity. Qed.
  Lemma holds_all B x range body s : holds ext B (FAll x range body) s =
    (in_range B x range s (s x) /\ forall v, in_range B x range s v ->
       exists s', const_assignment s' /\ same_on B s s' /\ s' x = v /\ all_hold ext (x :: B) body s').
  Proof. reflexivity. Qed.
  Lemma holds_count B x q s : holds ext B (FCount x q) s = (exists n, number B q s n /\ s x = VInt (Z.of_nat n)).
  Proof. reflexivity. Qed.
  Lemma holds_det B c k q s : holds ext B (FDet c k q) s = (exists n, number B q s n /\ Z.compare (Z.of_nat n) k = c).
  Proof. reflexivity. Qed.
End Meaning.

Lemma number_unique ext B q s n m : number ext B q s n -> number ext B q s m -> n = m.
Proof.
  intros (l & Hn & <- & Hl) (l' & Hn' & <- & Hl').
  apply Nat.le_antisymm; apply NoDup_incl_length; auto; intros x Hx; apply Hl, Hl' in Hx || apply Hl', Hl in Hx; auto.
Qed.

(** ** well-formedness, unfolded *)

Section Wf.
  Variable good_atom : fatom -> Prop.
  Variable H : list string.
  Notation wf := (well_formed good_atom H).
  Notation wfs := (wfs good_atom H).
  Notation local := (local H).

  Lemma wf_not B n q : wf B (FNot n q) = (local B (vars q) /\ wfs B q).
  Proof. reflexivity. Qed.
  Lemma wf_some B q : wf B (FSome q) = (local B (vars q) /\ wfs B q).
  Proof. reflexivity. Qed.
  Lemma wf_det B c k q : wf B (FDet c k q) = (local B (vars q) /\ wfs B q).
  Proof. reflexivity. Qed.
  Lemma wf_all B x range body : wf B (FAll x range body) =
    (~ In x B /\ ~ In x H /\ In x (binds range) /\
     local B (vars range) /\ wfs B range /\ local (x :: B) (vars body) /\ wfs (x :: B) body).
  Proof. reflexivity. Qed.
  Lemma wf_count B x q : wf B (FCount x q) =
    (~ In x B /\ ~ In x H /\ ~ In x (vars q) /\ local B (vars q) /\ wfs B q).
  Proof. reflexivity. Qed.
  Lemma wf_or B alts : wf B (FOr alts) <-> forall q, In q alts ->
    local B (vars q) /\ wfs B q /\ forall x, In x (binds q ++ B) <-> In x (fol_binds (FOr alts) ++ B).
  Proof.
    change (wf B (FOr alts)) with
      ((fix each (l : list (list fol)) : Prop :=
           match l with
           | [] => True
           | q :: rest => (local B (vars q) /\ wfs B q /\
               forall x, In x (binds q ++ B) <-> In x (fol_binds (FOr alts) ++ B)) /\ each rest
           end) alts).
    generalize (fol_binds (FOr alts)) as bs. intros bs.
    induction alts as [|q alts IH]; [split; auto; intros _ q []|].
    rewrite IH. split.
    - intros [A B'] q' [<-|Hq]; auto.
    - intros A. split; [apply A; now left|]. intros q' Hq. apply A. now right.
  Qed.

End Wf.

(** ** variables *)

Lemma in_arg_vars x l : In x (arg_vars l) <-> In (VVar x) l.
Proof.
  unfold arg_vars. rewrite in_flat_map. split.
  - intros (v & Hv & Hx). destruct v; simpl in Hx; try tauto. destruct Hx as [->|[]]. auto.
  - intros Hx. exists (VVar x). simpl; auto.
Qed.

Lemma fol_binds_vars f : incl (fol_binds f) (fol_vars f).
Proof.
  induction f using fol_ind'; simpl; try apply incl_refl; try (intros x []).
  - destruct alts as [|q alts]; [intros x []|]. inversion H as [|? ? H1 H2]; subst. simpl.
    apply incl_appl. intros x Hx. apply in_flat_map in Hx as (f & Hf & Hx).
    rewrite Forall_forall in H1. apply in_flat_map. exists f. split; auto. now apply (H1 f Hf).
  - intros y [<-|[]]. now left.
  - intros y [<-|[]]. now left.
Qed.

Lemma binds_vars q : incl (binds q) (vars q).
Proof.
  intros x Hx. apply in_flat_map in Hx as (f & Hf & Hx). apply in_flat_map. exists f. split; auto.
  now apply fol_binds_vars.
Qed.

Lemma arg_vars_inst s s' v : (forall x, In x (arg_vars [v]) -> s x = s' x) -> inst s v = inst s' v.
Proof. destruct v; auto. simpl. intros H. apply H. now left. Qed.

Lemma arg_vars_map s s' l : (forall x, In x (arg_vars l) -> s x = s' x) -> map (inst s) l = map (inst s') l.
Proof.
  intros H. apply map_ext_in. intros v Hv. destruct v; auto. simpl. apply H. now apply in_arg_vars.
Qed.

(** ** changing the assignment *)

Definition over (B : list string) (s t : assignment) : assignment :=
  fun x => if in_dec string_dec x B then s x else t x.

Lemma over_const B s t : const_assignment s -> const_assignment t -> const_assignment (over B s t).
Proof. intros Hs Ht x. unfold over. destruct (in_dec string_dec x B); auto. Qed.
Lemma over_same B s t : same_on B s (over B s t).
Proof. intros x Hx. unfold over. destruct (in_dec string_dec x B); [reflexivity|contradiction]. Qed.
Lemma over_out B s t x : ~ In x B -> over B s t x = t x.
Proof. intros Hx. unfold over. destruct (in_dec string_dec x B); [contradiction|reflexivity]. Qed.
Lemma same_on_refl B s : same_on B s s.
Proof. intros x _. reflexivity. Qed.
Lemma same_on_incl B B' s t : incl B B' -> same_on B' s t -> same_on B s t.
Proof. intros Hi H x Hx. apply H. auto. Qed.

(** [s] and [s'] agree on what a query depends on *)
Definition agree_for (B xs bs : list string) (s s' : assignment) : Prop :=
  forall x, In x xs -> In x B \/ In x bs -> s x = s' x.

(** carry a solution of a nested query over to another outer assignment *)
Lemma carry B xs s s' t : (forall x, In x xs -> In x B -> s x = s' x) ->
  same_on B s t -> forall x, In x xs -> t x = over B s' t x.
Proof.
  intros Ha Hs x Hx. unfold over. destruct (in_dec string_dec x B) as [Hb|]; auto.
  rewrite <- (Hs x Hb). auto.
Qed.

Section Change.
  Variable ext : string -> list value -> Prop.
  Variable good_atom : fatom -> Prop.
  Variable H : list string.
  Notation wf := (well_formed good_atom H).
  Notation wfs := (wfs good_atom H).

  Definition stable (f : fol) : Prop := forall B s s',
    wf B f -> const_assignment s -> const_assignment s' ->
    agree_for B (fol_vars f) (fol_binds f) s s' -> holds ext B f s -> holds ext B f s'.

  Lemma stable_all q : Forall stable q -> forall B s s',
    wfs B q -> const_assignment s -> const_assignment s' ->
    agree_for B (vars q) (binds q) s s' -> all_hold ext B q s -> all_hold ext B q s'.
  Proof.
    induction 1 as [|f q Hf Hq IH]; intros B s s' Hw Hs Hs' Ha Hh; [exact I|].
    destruct Hw as [Hw1 Hw2]. destruct Hh as [Hh1 Hh2]. split.
    - apply (Hf B s s'); auto. intros x Hx Hb. apply Ha.
      + unfold vars. simpl. apply in_or_app. auto.
      + destruct Hb; auto. right. unfold binds. simpl. apply in_or_app. auto.
    - apply (IH _ s s'); auto. intros x Hx Hb. apply Ha.
      + unfold vars. simpl. apply in_or_app. auto.
      + unfold binds. simpl. rewrite in_app_iff. destruct Hb as [Hb|Hb]; auto.
        apply in_app_or in Hb as [|]; auto.
  Qed.

  (** nested queries only depend on the variables that have a value *)
  Lemma possible_change q : Forall stable q -> forall B s s',
    wfs B q -> const_assignment s -> const_assignment s' ->
    (forall x, In x (vars q) -> In x B -> s x = s' x) -> possible ext B q s -> possible ext B q s'.
  Proof.
    intros Hq B s s' Hw Hs Hs' Ha (t & Ht & Hst & Hh).
    exists (over B s' t). split; [now apply over_const|]. split; [apply over_same|].
    eapply stable_all; [exact Hq|exact Hw|exact Ht|now apply over_const| |exact Hh].
    intros x Hx _. eapply carry; eauto.
  Qed.

  Lemma number_change q : Forall stable q -> forall B s s' n,
    wfs B q -> const_assignment s -> const_assignment s' ->
    (forall x, In x (vars q) -> In x B -> s x = s' x) -> number ext B q s n -> number ext B q s' n.
  Proof.
    intros Hq B s s' n Hw Hs Hs' Ha (rows & Hn & Hl & Hr).
    exists rows. split; auto. split; auto. intros row. rewrite Hr.
    assert (G : forall s s', const_assignment s -> const_assignment s' ->
      (forall x, In x (vars q) -> In x B -> s x = s' x) ->
      (exists t, const_assignment t /\ same_on B s t /\ all_hold ext B q t /\ row = map t (binds q)) ->
      exists t, const_assignment t /\ same_on B s' t /\ all_hold ext B q t /\ row = map t (binds q)).
    { clear s s' Hs Hs' Ha Hr. intros s s' Hs Hs' Ha (t & Ht & Hst & Hh & ->).
      pose proof (carry B (vars q) s s' t Ha Hst) as Hc.
      exists (over B s' t). split; [now apply over_const|]. split; [apply over_same|]. split.
      - eapply stable_all; [exact Hq|exact Hw|exact Ht|now apply over_const| |exact Hh]. intros x Hx _. auto.
      - apply map_ext_in. intros x Hx. apply Hc. now apply binds_vars. }
    split; apply G; auto. intros x Hx Hb. symmetry. auto.
  Qed.

  Lemma holds_stable f : stable f.
  Proof.
    induction f as [a|t u|l t u|n q IH|q IH|alts IH|x range body IHr IHb|x q IH|c k q IH] using fol_ind';
      intros B s s' Hw Hs Hs' Ha Hh.
    - simpl in *. rewrite <- (arg_vars_map s s'); auto.
    - assert (Et : inst s t = inst s' t).
      { destruct t; auto. simpl. apply Ha; simpl; auto. }
      assert (Eu : inst s u = inst s' u).
      { destruct u; auto. simpl. apply Ha; [|right]; simpl; apply in_or_app; right; simpl; auto. }
      simpl in *. congruence.
    - destruct Hw as (_ & _ & Kt & Ku).
      assert (Et : inst s t = inst s' t).
      { destruct t; auto. simpl. apply Ha; simpl; auto. }
      assert (Eu : inst s u = inst s' u).
      { destruct u; auto. simpl. apply Ha; simpl; auto. apply in_or_app. right. simpl. auto. }
      simpl in *. destruct l; congruence.
    - rewrite wf_not in Hw. destruct Hw as [_ Hw]. rewrite holds_not in *. intros F. apply Hh.
      eapply possible_change; [exact IH|exact Hw|exact Hs'|exact Hs| |exact F].
      intros x Hx Hb. symmetry. apply Ha; auto.
    - rewrite wf_some in Hw. destruct Hw as [_ Hw]. rewrite holds_some in *.
      apply (possible_change q IH B s s'); auto.
    - rewrite wf_or in Hw. rewrite holds_or in *.
      assert (G : forall l, incl l alts -> first_alt ext B l s -> first_alt ext B l s').
      { induction l as [|q l IHl]; intros Hi; [auto|]. cbn [first_alt].
        assert (Hq : In q alts) by (apply Hi; now left). destruct (Hw q Hq) as (_ & Hw1 & Hw2).
        rewrite Forall_forall in IH. specialize (IH q Hq).
        assert (Hv : incl (vars q) (fol_vars (FOr alts))).
        { intros y Hy. simpl. apply in_flat_map. exists q. auto. }
        intros [Hh'|[Hn Hr]].
        - left. eapply stable_all; [exact IH|exact Hw1|exact Hs|exact Hs'| |exact Hh'].
          intros y Hy Hb. apply Ha; auto.
          assert (In y (fol_binds (FOr alts) ++ B)) as Hc by (apply Hw2; apply in_or_app; tauto).
          apply in_app_or in Hc. tauto.
        - right. split.
          + intros F. apply Hn. eapply possible_change; [exact IH|exact Hw1|exact Hs'|exact Hs| |exact F].
            intros y Hy Hb. symmetry. apply Ha; auto.
          + apply IHl; auto. intros y Hy. apply Hi. now right. }
      apply G; auto. apply incl_refl.
    - rewrite wf_all in Hw. destruct Hw as (X1 & X2 & X3 & _ & Hwr & _ & Hwb). rewrite holds_all in *.
      assert (Hx : s x = s' x) by (apply Ha; simpl; auto).
      assert (G : forall s s', const_assignment s -> const_assignment s' ->
        (forall y, In y (vars range) -> In y B -> s y = s' y) -> forall v,
        in_range ext B x range s v -> in_range ext B x range s' v).
      { clear s s' Hs Hs' Ha Hh Hx. intros s s' Hs Hs' Ha v (t & Ht & Hst & Hv & Hh).
        exists (over B s' t). split; [now apply over_const|]. split; [apply over_same|].
        split; [now rewrite over_out|].
        eapply stable_all; [exact IHr|exact Hwr|exact Ht|now apply over_const| |exact Hh].
        intros y Hy _. eapply carry; eauto. }
      assert (Hr : forall y, In y (vars range) -> In y B -> s y = s' y).
      { intros y Hy Hb. apply Ha; auto. simpl. right. apply in_or_app. auto. }
      destruct Hh as [Hh1 Hh2]. split; [rewrite <- Hx; eapply G; eauto|].
      intros v Hv. destruct (Hh2 v) as (t & Ht & Hst & Hv' & Hb').
      { eapply G; [exact Hs'|exact Hs| |exact Hv]. intros y Hy Hb. symmetry. auto. }
      exists (over B s' t). split; [now apply over_const|]. split; [apply over_same|].
      split; [now rewrite over_out|].
      eapply stable_all; [exact IHb|exact Hwb|exact Ht|now apply over_const| |exact Hb'].
      intros y Hy _. unfold over. destruct (in_dec string_dec y B) as [Hb|]; auto.
      rewrite <- (Hst y Hb). apply Ha; auto. simpl. right. apply in_or_app. auto.
    - rewrite wf_count in Hw. destruct Hw as (X1 & X2 & X3 & _ & Hw). rewrite holds_count in *.
      destruct Hh as (n & Hn & Hx). exists n. split.
      + eapply number_change; [exact IH|exact Hw|exact Hs|exact Hs'| |exact Hn].
        intros y Hy Hb. apply Ha; auto. simpl. auto.
      + rewrite <- Hx. symmetry. apply Ha; simpl; auto.
    - rewrite wf_det in Hw. destruct Hw as [_ Hw]. rewrite holds_det in *.
      destruct Hh as (n & Hn & Hx). exists n. split; auto.
      eapply number_change; [exact IH|exact Hw|exact Hs|exact Hs'| |exact Hn].
      intros y Hy Hb. apply Ha; auto.
  Qed.

  Lemma all_hold_stable q B s s' :
    wfs B q -> const_assignment s -> const_assignment s' ->
    agree_for B (vars q) (binds q) s s' -> all_hold ext B q s -> all_hold ext B q s'.
  Proof. apply stable_all. apply Forall_forall. intros f _. apply holds_stable. Qed.

  (** ** changing the variables that have a value *)

  (** [B'] has the same variables as [B], apart from head variables *)
  Definition near (xs B B' : list string) : Prop :=
    forall x, In x xs -> (In x B -> In x B') /\ (In x B' -> In x B \/ In x H).

  Definition insensitive (f : fol) : Prop := forall B B' s,
    wf B f -> near (fol_vars f) B B' -> const_assignment s -> (holds ext B f s <-> holds ext B' f s).

  Lemma near_more xs bs B B' : near xs B B' -> near xs (bs ++ B) (bs ++ B').
  Proof.
    intros Hn x Hx. destruct (Hn x Hx) as [N1 N2]. rewrite !in_app_iff. split; intros [|Hb]; auto.
    destruct (N2 Hb); auto.
  Qed.
  Lemma near_incl xs ys B B' : incl ys xs -> near xs B B' -> near ys B B'.
  Proof. intros Hi Hn x Hx. apply Hn. auto. Qed.

  Lemma insensitive_all q : Forall insensitive q -> forall B B' s,
    wfs B q -> near (vars q) B B' -> const_assignment s -> (all_hold ext B q s <-> all_hold ext B' q s).
  Proof.
    induction 1 as [|f q Hf Hq IH]; intros B B' s Hw Hn Hs; [simpl; tauto|].
    destruct Hw as [Hw1 Hw2].
    assert (N1 : near (fol_vars f) B B').
    { eapply near_incl; [|exact Hn]. unfold vars. simpl. apply incl_appl, incl_refl. }
    assert (N2 : near (vars q) (fol_binds f ++ B) (fol_binds f ++ B')).
    { apply near_more. eapply near_incl; [|exact Hn]. unfold vars. simpl. apply incl_appr, incl_refl. }
    cbn [all_hold]. rewrite (Hf B B' s), (IH _ _ s Hw2 N2 Hs) by auto. tauto.
  Qed.

  (** inside a nested query there are no head variables without a value *)
  Lemma local_near B B' xs : local H B xs -> near xs B B' -> forall x, In x xs -> (In x B <-> In x B').
  Proof.
    intros Hl Hn x Hx. destruct (Hn x Hx) as [N1 N2]. split; auto. intros Hb.
    destruct (N2 Hb) as [|Hh]; auto. destruct (Hl x Hx); auto. contradiction.
  Qed.

  Lemma carry' B B' xs s t : (forall x, In x xs -> (In x B <-> In x B')) ->
    same_on B s t -> forall x, In x xs -> t x = over B' s t x.
  Proof.
    intros Hi Hs x Hx. unfold over. destruct (in_dec string_dec x B') as [Hb|]; auto.
    symmetry. apply Hs. now apply Hi.
  Qed.

  Lemma nested q B B' s t : Forall insensitive q -> wfs B q -> local H B (vars q) -> near (vars q) B B' ->
    const_assignment s -> const_assignment t -> same_on B s t ->
    all_hold ext B q t -> all_hold ext B' q (over B' s t).
  Proof.
    intros Hq Hw Hl Hn Hs Ht Hst Hh.
    eapply (insensitive_all q Hq B B'); auto; [now apply over_const|].
    eapply all_hold_stable; [exact Hw|exact Ht|now apply over_const| |exact Hh].
    intros x Hx _. eapply carry'; eauto. now apply local_near.
  Qed.

  Lemma nested' q B B' s t : Forall insensitive q -> wfs B q -> local H B (vars q) -> near (vars q) B B' ->
    const_assignment s -> const_assignment t -> same_on B' s t ->
    all_hold ext B' q t -> all_hold ext B q (over B s t).
  Proof.
    intros Hq Hw Hl Hn Hs Ht Hst Hh.
    assert (Hi : forall x, In x (vars q) -> (In x B <-> In x B')) by (now apply local_near).
    eapply all_hold_stable; [exact Hw|exact Ht|now apply over_const| |].
    - intros x Hx _. apply (carry' B' B (vars q)); auto. intros y Hy. symmetry. auto.
    - apply (insensitive_all q Hq B B'); auto.
  Qed.

  Lemma possible_near q B B' s : Forall insensitive q -> wfs B q -> local H B (vars q) -> near (vars q) B B' ->
    const_assignment s -> (possible ext B q s <-> possible ext B' q s).
  Proof.
    intros Hq Hw Hl Hn Hs. split.
    - intros (t & Ht & Hst & Hh). exists (over B' s t). split; [now apply over_const|].
      split; [apply over_same|]. eapply nested; eauto.
    - intros (t & Ht & Hst & Hh). exists (over B s t). split; [now apply over_const|].
      split; [apply over_same|]. eapply nested'; eauto.
  Qed.

  Lemma number_near q B B' s n : Forall insensitive q -> wfs B q -> local H B (vars q) -> near (vars q) B B' ->
    const_assignment s -> (number ext B q s n <-> number ext B' q s n).
  Proof.
    intros Hq Hw Hl Hn Hs.
    assert (Hi : forall x, In x (vars q) -> (In x B <-> In x B')) by (now apply local_near).
    assert (G : forall row,
      (exists t, const_assignment t /\ same_on B s t /\ all_hold ext B q t /\ row = map t (binds q)) <->
      (exists t, const_assignment t /\ same_on B' s t /\ all_hold ext B' q t /\ row = map t (binds q))).
    { intros row. split; intros (t & Ht & Hst & Hh & ->).
      - exists (over B' s t). split; [now apply over_const|]. split; [apply over_same|].
        split; [eapply nested; eauto|]. apply map_ext_in. intros x Hx.
        apply (carry' B B' (vars q)); auto. now apply binds_vars.
      - exists (over B s t). split; [now apply over_const|]. split; [apply over_same|].
        split; [eapply nested'; eauto|]. apply map_ext_in. intros x Hx.
        apply (carry' B' B (vars q)); auto. intros y Hy. symmetry. auto. now apply binds_vars. }
    split; intros (rows & H1 & H2 & H3); exists rows; (split; [|split]); auto;
      intros row; rewrite H3; [apply G|symmetry; apply G].
  Qed.

  Lemma holds_insensitive f : insensitive f.
  Proof.
    induction f as [a|t u|l t u|n q IH|q IH|alts IH|x range body IHr IHb|x q IH|c k q IH] using fol_ind';
      intros B B' s Hw Hn Hs; try reflexivity.
    - rewrite wf_not in Hw. destruct Hw as [Hl Hw]. rewrite !holds_not, (possible_near q B B'); auto. tauto.
    - rewrite wf_some in Hw. destruct Hw as [Hl Hw]. rewrite !holds_some, (possible_near q B B'); auto. tauto.
    - rewrite wf_or in Hw. rewrite !holds_or.
      assert (G : forall l, incl l alts -> (first_alt ext B l s <-> first_alt ext B' l s)).
      { induction l as [|q l IHl]; intros Hi; [simpl; tauto|]. cbn [first_alt].
        assert (Hq : In q alts) by (apply Hi; now left). destruct (Hw q Hq) as (Hl & Hw1 & _).
        rewrite Forall_forall in IH. specialize (IH q Hq).
        assert (Hv : near (vars q) B B').
        { eapply near_incl; [|exact Hn]. intros y Hy. simpl. apply in_flat_map. exists q. auto. }
        rewrite (possible_near q B B'), IHl, (insensitive_all q IH B B') by (auto; intros y Hy; apply Hi; now right).
        tauto. }
      apply G. apply incl_refl.
    - rewrite wf_all in Hw. destruct Hw as (X1 & X2 & X3 & Hlr & Hwr & Hlb & Hwb). rewrite !holds_all.
      assert (X1' : ~ In x B').
      { intros F. destruct (Hn x) as [_ N]; [now left|]. destruct (N F); auto. }
      assert (Nr : near (vars range) B B').
      { eapply near_incl; [|exact Hn]. simpl. intros y Hy. right. apply in_or_app. auto. }
      assert (Nb : near (vars body) (x :: B) (x :: B')).
      { apply (near_more _ [x]). eapply near_incl; [|exact Hn]. simpl. intros y Hy. right. apply in_or_app. auto. }
      assert (G : forall v, in_range ext B x range s v <-> in_range ext B' x range s v).
      { intros v. split; intros (t & Ht & Hst & Hv & Hh).
        - exists (over B' s t). split; [now apply over_const|]. split; [apply over_same|].
          split; [now rewrite over_out|]. eapply nested; eauto.
        - exists (over B s t). split; [now apply over_const|]. split; [apply over_same|].
          split; [now rewrite over_out|]. eapply nested'; eauto. }
      assert (G' : forall v,
        (exists s', const_assignment s' /\ same_on B s s' /\ s' x = v /\ all_hold ext (x :: B) body s') <->
        (exists s', const_assignment s' /\ same_on B' s s' /\ s' x = v /\ all_hold ext (x :: B') body s')).
      { intros v.
        assert (Ci : forall y, In y (vars body) -> (In y (x :: B) <-> In y (x :: B')))
          by (now apply local_near).
        split; intros (t & Ht & Hst & Hv & Hh).
        - exists (over B' s t). split; [now apply over_const|]. split; [apply over_same|].
          split; [now rewrite over_out|].
          apply (insensitive_all body IHb (x :: B) (x :: B')); auto; [now apply over_const|].
          eapply all_hold_stable; [exact Hwb|exact Ht|now apply over_const| |exact Hh].
          intros y Hy _. unfold over. destruct (in_dec string_dec y B') as [Hb|]; auto.
          assert (In y (x :: B)) as [<-|Hb'] by (apply Ci; simpl; auto); [contradiction|].
          symmetry. now apply Hst.
        - exists (over B s t). split; [now apply over_const|]. split; [apply over_same|].
          split; [now rewrite over_out|].
          apply (insensitive_all body IHb (x :: B) (x :: B')) in Hh; auto.
          eapply all_hold_stable; [exact Hwb|exact Ht|now apply over_const| |exact Hh].
          intros y Hy _. unfold over. destruct (in_dec string_dec y B) as [Hb|]; auto.
          assert (In y (x :: B')) as [<-|Hb'] by (apply Ci; simpl; auto); [contradiction|].
          symmetry. now apply Hst. }
      rewrite G. split; intros [A1 A2]; split; auto; intros v Hv; apply G'; apply A2; now apply G.
    - rewrite wf_count in Hw. destruct Hw as (X1 & X2 & X3 & Hl & Hw). rewrite !holds_count.
      assert (Nq : near (vars q) B B').
      { eapply near_incl; [|exact Hn]. simpl. intros y Hy. now right. }
      split; intros (n & N1 & N2); exists n; (split; [|auto]); apply (number_near q B B'); auto.
    - rewrite wf_det in Hw. destruct Hw as (Hl & Hw). rewrite !holds_det.
      split; intros (n & N1 & N2); exists n; (split; [|auto]); apply (number_near q B B'); auto.
  Qed.

  Lemma all_hold_near q B B' s :
    wfs B q -> near (vars q) B B' -> const_assignment s -> (all_hold ext B q s <-> all_hold ext B' q s).
  Proof. apply insensitive_all. apply Forall_forall. intros f _. apply holds_insensitive. Qed.
End Change.
