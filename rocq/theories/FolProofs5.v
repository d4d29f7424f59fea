(** * First-order queries: sorted programs are safe *)

From Coq Require Import ZArith String List Bool Lia Arith.
From Verif Require Import Py PyFacts CoreProofs2 DatalogSpec FolSpec FolProofs FolProofs2 FolProofs4.
Import ListNotations.
Local Open Scope nat_scope.
Local Open Scope string_scope.
Local Open Scope list_scope.

Section Sorts.
  Variable sig : string -> list sort.
  Variable ext : string -> list value -> Prop.
  Variable good_atom : fatom -> Prop.
  Variable H : list string.
  Variable env : string -> sort.

  Definition sorted_on (B : list string) (s : assignment) : Prop := forall x, In x B -> of_sort (env x) (s x).

  Lemma sorted_same B s s' : same_on B s s' -> sorted_on B s -> sorted_on B s'.
  Proof. intros Hs Hb x Hx. rewrite <- (Hs x Hx). auto. Qed.

  Lemma sorted_or alts : sorted sig env (FOr alts) <-> forall q, In q alts -> all_sorted sig env q.
  Proof.
    induction alts as [|q alts IH]; [simpl; split; auto; intros _ q []|].
    change (sorted sig env (FOr (q :: alts))) with (all_sorted sig env q /\ sorted sig env (FOr alts)).
    rewrite IH. split.
    - intros [A B] q' [<-|Hq]; auto.
    - intros A. split; [apply A; now left|]. intros; apply A; now right.
  Qed.

  Lemma arg_of_sort B s c v : arg_sorted env c v -> known_arg B v -> sorted_on B s -> of_sort c (inst s v).
  Proof. destruct v; simpl; auto. intros <- Hk Hs. auto. Qed.

  Lemma sort_unique c c' v : of_sort c v -> of_sort c' v -> c = c'.
  Proof. destruct c, c', v; simpl; tauto. Qed.

  Definition keeps_sorts (f : fol) : Prop := forall B s,
    (forall p, In p (fol_preds f) -> sorted_rows sig ext p) -> well_formed good_atom H B f ->
    sorted sig env f -> sorted_on B s -> holds ext B f s -> sorted_on (fol_binds f ++ B) s.

  Lemma all_keep q : Forall keeps_sorts q -> forall B s,
    (forall p, In p (preds q) -> sorted_rows sig ext p) -> wfs good_atom H B q ->
    all_sorted sig env q -> sorted_on B s -> all_hold ext B q s -> sorted_on (binds q ++ B) s.
  Proof.
    induction 1 as [|f q Hf Hq IH]; intros B s Hp Hw Hc Hb Hh; [exact Hb|].
    destruct Hw as [Hw1 Hw2], Hc as [Hc1 Hc2], Hh as [Hh1 Hh2].
    assert (G : sorted_on (binds q ++ fol_binds f ++ B) s).
    { apply IH; auto.
      - intros p Hpp. apply Hp. unfold preds. simpl. apply in_or_app. auto.
      - apply Hf; auto. intros p Hpp. apply Hp. unfold preds. simpl. apply in_or_app. auto. }
    intros x Hx. apply G. unfold binds in *. simpl in Hx. rewrite !in_app_iff in *. tauto.
  Qed.

  Lemma row_sorted s cs args : Forall2 (arg_sorted env) cs args ->
    Forall2 of_sort cs (map (inst s) args) -> forall x, In x (arg_vars args) -> of_sort (env x) (s x).
  Proof.
    induction 1 as [|c v cs args Hv Ha IH]; intros Hr x Hx; [destruct Hx|].
    inversion Hr; subst. destruct v; simpl in Hx; auto. destruct Hx as [<-|Hx]; auto.
    simpl in *. now subst c.
  Qed.

  Lemma holds_keeps f : keeps_sorts f.
  Proof.
    induction f as [a|t u|l t u|n q IH|q IH|alts IH|x range body IHr IHb|x q IH|c k q IH] using fol_ind';
      intros B s Hp Hw Hc Hb Hh; try exact Hb.
    - simpl in Hc, Hh. intros x Hx. apply in_app_or in Hx as [Hx|Hx]; auto.
      apply (row_sorted s (sig (fa_pred a)) (fa_args a)); auto.
      apply (Hp (fa_pred a)); auto. now left.
    - destruct Hw as (_ & _ & Hk). destruct Hc as (c & C1 & C2). simpl in Hh.
      assert (Hv : of_sort c (inst s t)).
      { destruct Hk as [Hk|Hk]; [|rewrite Hh]; eapply arg_of_sort; eauto. }
      assert (Hu : of_sort c (inst s u)) by now rewrite <- Hh.
      intros x Hx. apply in_app_or in Hx as [Hx|Hx]; auto.
      apply in_arg_vars in Hx. destruct Hx as [->|[->|[]]]; simpl in *; now subst c.
    - apply holds_or in Hh. rewrite wf_or in Hw. rewrite sorted_or in Hc. rewrite Forall_forall in IH.
      assert (G : forall rest, incl rest alts -> first_alt ext B rest s ->
        exists q, In q alts /\ all_hold ext B q s).
      { induction rest as [|q rest IHq]; intros Hi F; [destruct F|]. destruct F as [F|[_ F]].
        - exists q. split; auto. apply Hi. now left.
        - apply IHq; auto. intros y Hy. apply Hi. now right. }
      destruct (G alts (incl_refl _) Hh) as (q & Hq & Hqs). destruct (Hw q Hq) as (_ & Hwq & Hx).
      assert (F : sorted_on (binds q ++ B) s).
      { apply all_keep; auto. intros p Hpp. apply Hp. simpl. apply in_flat_map. exists q. auto. }
      intros y Hy. apply F. now apply Hx.
    - rewrite wf_all in Hw. destruct Hw as (A1 & A2 & A3 & A4 & A5 & A6 & A7).
      destruct Hc as [C1 C2]. rewrite holds_all in Hh. destruct Hh as [(s' & K1 & K2 & K3 & K4) _].
      intros y Hy. simpl in Hy. destruct Hy as [<-|Hy]; auto. rewrite <- K3.
      assert (F : sorted_on (binds range ++ B) s').
      { apply all_keep; auto; [|eapply sorted_same; eauto].
        intros p Hpp. apply Hp. simpl. apply in_or_app. auto. }
      apply F. apply in_or_app. auto.
    - destruct Hc as [C1 _]. rewrite holds_count in Hh. destruct Hh as (n & _ & Hn).
      intros y Hy. simpl in Hy. destruct Hy as [<-|Hy]; auto. rewrite Hn, C1. exact I.
  Qed.

  Lemma query_keeps q B s :
    (forall p, In p (preds q) -> sorted_rows sig ext p) -> wfs good_atom H B q ->
    all_sorted sig env q -> sorted_on B s -> all_hold ext B q s -> sorted_on (binds q ++ B) s.
  Proof. apply all_keep. apply Forall_forall. intros f _. apply holds_keeps. Qed.

  (** ** safety *)

  Definition sorted_safe (f : fol) : Prop := forall B s,
    (forall p, In p (fol_preds f) -> sorted_rows sig ext p) -> well_formed good_atom H B f ->
    sorted sig env f -> sorted_on B s -> safe ext B f s.

  Lemma all_sorted_safe q : Forall sorted_safe q -> forall B s,
    (forall p, In p (preds q) -> sorted_rows sig ext p) -> wfs good_atom H B q ->
    all_sorted sig env q -> sorted_on B s -> all_safe ext B q s.
  Proof.
    induction 1 as [|f q Hf Hq IH]; intros B s Hp Hw Hc Hb; [exact I|].
    destruct Hw as [Hw1 Hw2], Hc as [Hc1 Hc2].
    assert (Hpf : forall p, In p (fol_preds f) -> sorted_rows sig ext p).
    { intros p Hpp. apply Hp. unfold preds. simpl. apply in_or_app. auto. }
    split; [apply Hf; auto|]. intros s' _ Hs' Hh. apply IH; auto.
    - intros p Hpp. apply Hp. unfold preds. simpl. apply in_or_app. auto.
    - apply holds_keeps; auto. eapply sorted_same; eauto.
  Qed.

  Lemma sorted_is_safe f : sorted_safe f.
  Proof.
    induction f as [a|t u|l t u|n q IH|q IH|alts IH|x range body IHr IHb|x q IH|c k q IH] using fol_ind';
      intros B s Hp Hw Hc Hb; try exact I.
    - destruct Hw as (_ & _ & K1 & K2). destruct Hc as (c & C1 & C2).
      pose proof (arg_of_sort B s c t C1 K1 Hb) as G1. pose proof (arg_of_sort B s c u C2 K2 Hb) as G2.
      simpl. destruct c; destruct (inst s t); try (now destruct G1); destruct (inst s u); try (now destruct G2);
        constructor.
    - rewrite wf_not in Hw. apply (all_sorted_safe q IH); auto. apply Hw.
    - rewrite wf_some in Hw. apply (all_sorted_safe q IH); auto. apply Hw.
    - rewrite wf_or in Hw. rewrite sorted_or in Hc. rewrite Forall_forall in IH. apply safe_or.
      intros q Hq. destruct (Hw q Hq) as (_ & Hwq & _). apply (all_sorted_safe q (IH q Hq)); auto.
      intros p Hpp. apply Hp. simpl. apply in_flat_map. exists q. auto.
    - rewrite wf_all in Hw. destruct Hw as (A1 & A2 & A3 & A4 & A5 & A6 & A7). destruct Hc as [C1 C2].
      assert (P1 : forall p, In p (preds range) -> sorted_rows sig ext p)
        by (intros p Hpp; apply Hp; simpl; apply in_or_app; auto).
      assert (P2 : forall p, In p (preds body) -> sorted_rows sig ext p)
        by (intros p Hpp; apply Hp; simpl; apply in_or_app; auto).
      rewrite safe_all. split; [apply (all_sorted_safe range IHr); auto|].
      intros s' K1 K2 (s2 & K3 & K4 & K5 & K6).
      assert (F : sorted_on (binds range ++ B) s2) by (apply query_keeps; auto; eapply sorted_same; eauto).
      assert (Hx : of_sort (env x) (s' x)) by (rewrite <- K5; apply F, in_or_app; auto).
      split.
      + destruct (env x), (s' x); simpl in Hx; try tauto; reflexivity.
      + apply (all_sorted_safe body IHb); auto. intros y [<-|Hy]; auto.
        eapply sorted_same; eauto.
    - rewrite wf_count in Hw. apply (all_sorted_safe q IH); auto; [apply Hw|apply Hc].
    - rewrite wf_det in Hw. apply (all_sorted_safe q IH); auto. apply Hw.
  Qed.

  Lemma query_safe q B s :
    (forall p, In p (preds q) -> sorted_rows sig ext p) -> wfs good_atom H B q ->
    all_sorted sig env q -> sorted_on B s -> all_safe ext B q s.
  Proof. apply all_sorted_safe. apply Forall_forall. intros f _. apply sorted_is_safe. Qed.
End Sorts.

(** the relations of a sorted program have the right sorts *)
Lemma program_sorted sig good_atom db rules ext rank :
  completed db rules ext -> hierarchical rank rules ->
  (forall p t, In t (db p) -> Forall2 of_sort (sig p) t) ->
  (forall r, In r rules -> good_rule good_atom r /\ sorted_rule sig r) ->
  forall p, sorted_rows sig ext p.
Proof.
  intros Hext Hrank Hdb Hr.
  assert (G : forall n p, rank p < n -> sorted_rows sig ext p).
  { induction n as [|n IH]; intros p Hn; [lia|]. intros t Ht.
    apply Hext in Ht as [Ht|(r & s & Hin & Hs & Hb & <- & ->)]; [now apply Hdb|].
    destruct (Hr r Hin) as [(_ & Hw & Hi) (env & E1 & E2)].
    assert (F : sorted_on env (binds (rl_body r) ++ []) s).
    { apply (query_keeps sig ext good_atom (arg_vars (fa_args (rl_head r))) env); auto; [|intros ? []].
      intros p Hp. apply IH. specialize (Hrank r Hin p Hp). lia. }
    simpl in E1. unfold incl in Hi. clear -E1 F Hi. revert E1 Hi.
    generalize (sig (fa_pred (rl_head r))) as cs. generalize (fa_args (rl_head r)) as args.
    induction args as [|v args IH]; intros cs E1 Hi; inversion E1; subst; constructor.
    - eapply (arg_of_sort env (binds (rl_body r) ++ [])); eauto. destruct v; simpl; auto.
      apply in_or_app. left. apply Hi. now left.
    - apply IH; auto. intros z Hx. apply Hi. unfold arg_vars. simpl. apply in_or_app. now right. }
  intros p. apply (G (S (rank p))). lia.
Qed.
