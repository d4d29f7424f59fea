(** * First-order queries in another order *)

From Coq Require Import ZArith String List Bool Lia Arith Permutation.
From Verif Require Import Py PyFacts DatalogSpec FolSpec FolProofs FolProofs2 OptFolSpec.
Import ListNotations.
Local Open Scope nat_scope.
Local Open Scope string_scope.
Local Open Scope list_scope.

(** ** lists, position by position *)

(** the variables that have a value after [l] *)
Definition ctx (B : list string) (l : list fol) : list string :=
  fold_left (fun B f => fol_binds f ++ B) l B.
Lemma in_ctx x l : forall B, In x (ctx B l) <-> In x (binds l) \/ In x B.
Proof.
  induction l as [|f l IH]; intros B; [simpl; tauto|].
  cbn [ctx fold_left]. change (In x (ctx (fol_binds f ++ B) l) <-> In x (binds (f :: l)) \/ In x B).
  rewrite IH. unfold binds. cbn [flat_map]. rewrite !in_app_iff. tauto.
Qed.
Lemma ctx_app B l m : ctx B (l ++ m) = ctx (ctx B l) m.
Proof. apply fold_left_app. Qed.

Lemma in_vars x q : In x (vars q) <-> exists f, In f q /\ In x (fol_vars f).
Proof. apply in_flat_map. Qed.
Lemma in_binds x q : In x (binds q) <-> exists f, In f q /\ In x (fol_binds f).
Proof. apply in_flat_map. Qed.
Lemma vars_app l m : vars (l ++ m) = vars l ++ vars m.
Proof. apply flat_map_app. Qed.
Lemma binds_app l m : binds (l ++ m) = binds l ++ binds m.
Proof. apply flat_map_app. Qed.

Definition every (P : list string -> fol -> Prop) (B : list string) (q : list fol) : Prop :=
  forall l f r, q = l ++ f :: r -> P (ctx B l) f.
Lemma every_cons P B f q : every P B (f :: q) <-> P B f /\ every P (fol_binds f ++ B) q.
Proof.
  split.
  - intros H. split; [exact (H [] f q eq_refl)|]. intros l g r ->. exact (H (f :: l) g r eq_refl).
  - intros [H1 H2] [|g l] h r E; injection E as <- ->; auto. now apply (H2 l h r).
Qed.
Lemma every_nil P B : every P B [].
Proof. intros [|? ?] g0 r0 E; discriminate. Qed.

Lemma wfs_every good H q : forall B, wfs good H B q <-> every (well_formed good H) B q.
Proof.
  induction q as [|f q IH]; intros B; [split; auto using every_nil; simpl; auto|].
  rewrite every_cons, <- IH. reflexivity.
Qed.
Lemma all_hold_every ext q s : forall B, all_hold ext B q s <-> every (fun B f => holds ext B f s) B q.
Proof.
  induction q as [|f q IH]; intros B; [split; auto using every_nil; simpl; auto|].
  rewrite every_cons, <- IH. reflexivity.
Qed.
Lemma wfs_app good H l m B : wfs good H B (l ++ m) <-> wfs good H B l /\ wfs good H (ctx B l) m.
Proof.
  revert B. induction l as [|f l IH]; intros B; [simpl; tauto|]. cbn [wfs app ctx fold_left].
  change (fold_left (fun B f => fol_binds f ++ B) l (fol_binds f ++ B)) with (ctx (fol_binds f ++ B) l).
  rewrite IH. tauto.
Qed.
Lemma all_hold_app ext l m s B : all_hold ext B (l ++ m) s <-> all_hold ext B l s /\ all_hold ext (ctx B l) m s.
Proof.
  revert B. induction l as [|f l IH]; intros B; [simpl; tauto|]. cbn [all_hold app ctx fold_left].
  change (fold_left (fun B f => fol_binds f ++ B) l (fol_binds f ++ B)) with (ctx (fol_binds f ++ B) l).
  rewrite IH. tauto.
Qed.

(** the same variables of [xs] have a value *)
Definition alike (xs B B' : list string) : Prop := forall x, In x xs -> (In x B <-> In x B').
Lemma alike_near xs B B' : alike xs B B' -> near [] xs B B'.
Proof. intros H x Hx. destruct (H x Hx). auto. Qed.
Lemma alike_sym xs B B' : alike xs B B' -> alike xs B' B.
Proof. intros H x Hx. symmetry. now apply H. Qed.
Lemma alike_incl xs ys B B' : incl ys xs -> alike xs B B' -> alike ys B B'.
Proof. intros Hi H x Hx. apply H. auto. Qed.
Lemma alike_more xs bs B B' : alike xs B B' -> alike xs (bs ++ B) (bs ++ B').
Proof. intros H x Hx. rewrite !in_app_iff, (H x Hx). tauto. Qed.

Section Order.
  Variable good : fatom -> Prop.
  Variable moved : string -> bool.
  Notation wf := (well_formed good []).
  Notation wfs := (wfs good []).
  Notation tidy := (tidy moved).
  Notation tidies := (tidies moved).
  Notation placed := (placed moved).
  Notation is_moved := (is_moved moved).

  Lemma tidies_every q : forall before B,
    tidies before B q <-> every tidy B q /\ forall l f r, q = l ++ f :: r -> placed (vars l ++ before) (ctx B l) f r.
  Proof.
    induction q as [|f q IH]; intros before B; [split; auto; intros _; split; [apply every_nil|intros [|? ?] g0 r0 E; discriminate]|].
    cbn [OptFolSpec.tidies]. rewrite every_cons, IH.
    assert (P : forall b b' C g r, (forall x, In x b <-> In x b') -> placed b C g r -> placed b' C g r).
    { intros b b' C g r E P Hb x Hx. destruct (P Hb x Hx) as [P1 P2]. split; auto.
      intros N. destruct (P2 N) as [|[]]; auto. right. split; auto. now rewrite <- E. }
    split.
    - intros (H1 & H2 & H3 & H4). split; [auto|]. intros [|g l] h r E; injection E as <- ->; [exact H2|].
      eapply P; [|exact (H4 l h r eq_refl)]. intros x. unfold vars. cbn [flat_map]. rewrite !in_app_iff. tauto.
    - intros ((H1 & H2) & H3). split; auto. split; [exact (H3 [] f q eq_refl)|]. split; auto.
      intros l h r ->. eapply P; [|exact (H3 (f :: l) h r eq_refl)]. intros x. unfold vars. cbn [flat_map]. rewrite !in_app_iff. tauto.
  Qed.

  Definition tidy_moves f := forall B B', tidy B f -> alike (fol_vars f) B B' -> tidy B' f.
  Lemma placed_alike before B B' f after : alike (fol_vars f) B B' -> placed before B f after -> placed before B' f after.
  Proof.
    intros Ha P Hb x Hx. destruct (P Hb x Hx) as [P1 P2]. split; auto. intros N. destruct (P2 N); auto.
    left. now apply Ha.
  Qed.
  Lemma tidies_move q : Forall tidy_moves q -> forall before B B', tidies before B q -> alike (vars q) B B' -> tidies before B' q.
  Proof.
    induction 1 as [|f q Hf Hq IH]; intros before B B' T Ha; [exact I|]. destruct T as (T1 & T2 & T3).
    assert (A1 : alike (fol_vars f) B B') by (eapply alike_incl; [|exact Ha]; apply incl_appl, incl_refl).
    split; [eapply Hf; eauto|]. split; [eapply placed_alike; eauto|].
    eapply IH; [exact T3|]. apply alike_more. eapply alike_incl; [|exact Ha]. apply incl_appr, incl_refl.
  Qed.
  Lemma tidy_alike f : tidy_moves f.
  Proof.
    induction f as [a|t u|l t u|n q IH|q IH|alts IH|x range body IHr IHb|x q IH|c k q IH] using fol_ind';
      intros B B' T Ha; try exact T; try (eapply tidies_move; [exact IH|exact T|]; eapply alike_incl; [|exact Ha]).
    - apply incl_refl.
    - apply incl_refl.
    - destruct T as [T1 T2]. split; (eapply tidies_move; [eassumption|eassumption|]).
      + eapply alike_incl; [|exact Ha]. intros y Hy. simpl. right. apply in_or_app. auto.
      + apply (alike_more _ [x]). eapply alike_incl; [|exact Ha]. intros y Hy. simpl. right. apply in_or_app. auto.
    - intros y Hy. now right.
    - apply incl_refl.
  Qed.
  Lemma tidies_alike q before B B' : tidies before B q -> alike (vars q) B B' -> tidies before B' q.
  Proof. apply tidies_move. apply Forall_forall. intros f _. apply tidy_alike. Qed.

  (** the variable of [all] and [count] is new *)
  Lemma own_new B f x : has_body f = true -> tidy B f -> wf B f -> In x (fol_binds f) -> ~ In x B.
  Proof.
    destruct f; try discriminate; simpl; try tauto.
    - intros _ _ (N & _) [<-|[]]. exact N.
    - intros _ _ (N & _) [<-|[]]. exact N.
  Qed.

  (** ** the order does not matter *)

  Lemma place_alike B q q' l f r l' r' :
    (forall g, In g q <-> In g q') ->
    wfs B q -> wfs B q' -> tidies [] B q -> tidies [] B q' ->
    q = l ++ f :: r -> q' = l' ++ f :: r' -> has_body f = true -> alike (fol_vars f) (ctx B l) (ctx B l').
  Proof.
    assert (G : forall B q q' l f r l' r', (forall g, In g q <-> In g q') ->
      wfs B q -> wfs B q' -> tidies [] B q -> tidies [] B q' ->
      q = l ++ f :: r -> q' = l' ++ f :: r' -> has_body f = true -> 
      forall x, In x (fol_vars f) -> In x (ctx B l) -> In x (ctx B l')).
    { clear B q q' l f r l' r'. intros B q q' l f r l' r' He Hw Hw' Ht Ht' Eq Eq' Hf x Hx Hc.
      rewrite wfs_every in Hw, Hw'. rewrite tidies_every in Ht, Ht'.
      destruct (in_dec string_dec x (fol_binds f)) as [Hb|Hb].
      - exfalso. revert Hc. apply (own_new _ f); auto; [apply (proj1 Ht _ _ _ Eq)|apply (Hw _ _ _ Eq)].
      - destruct (proj2 (proj2 Ht' _ _ _ Eq' Hf x Hx) Hb) as [H|[H1 H2]]; auto.
        rewrite app_nil_r in H1. apply in_ctx in Hc as [Hc|Hc]; [|apply in_ctx; auto]. exfalso.
        apply in_binds in Hc as (g & Hg & Hgx).
        assert (Hq : In g q') by (apply He; rewrite Eq; apply in_or_app; auto).
        rewrite Eq' in Hq. apply fol_binds_vars in Hgx as Hgv. apply in_app_or in Hq as [Hq|[<-|Hq]]; auto.
        + apply H1. apply in_vars. eauto.
        + apply H2. apply in_vars. eauto. }
    intros He Hw Hw' Ht Ht' Eq Eq' Hf x Hx. split.
    - eapply G; eauto.
    - eapply (G B q' q); eauto. intros g. symmetry. apply He.
  Qed.

  Variable ext : string -> list value -> Prop.

  Lemma reorder_holds B q q' s : const_assignment s -> (forall g, In g q <-> In g q') ->
    wfs B q -> wfs B q' -> tidies [] B q -> tidies [] B q' ->
    all_hold ext B q s -> all_hold ext B q' s.
  Proof.
    intros Hs He Hw Hw' Ht Ht' Hh. rewrite all_hold_every in *. intros l' f r' Eq'.
    assert (Hf : In f q) by (apply He; rewrite Eq'; apply in_or_app; simpl; auto).
    apply in_split in Hf as (l & r & Eq). specialize (Hh _ _ _ Eq). cbn beta in *.
    destruct (has_body f) eqn:Hf.
    - apply (holds_insensitive ext good [] f (ctx B l)); auto.
      + rewrite wfs_every in Hw. exact (Hw _ _ _ Eq).
      + apply alike_near. eapply (place_alike B q q'); eauto.
    - destruct f; try discriminate; exact Hh.
  Qed.

  (** ** the moved atoms first *)

  Lemma filter_split {A} (p : A -> bool) q : forall l f r, filter p q = l ++ f :: r ->
    exists l0 r0, q = l0 ++ f :: r0 /\ filter p l0 = l /\ filter p r0 = r /\ p f = true.
  Proof.
    induction q as [|a q IH]; intros l f r E; [destruct l; discriminate|]. cbn [filter] in E.
    destruct (p a) eqn:Pa.
    - destruct l as [|b l]; injection E as -> E.
      + exists [], q. auto.
      + destruct (IH _ _ _ E) as (l0 & r0 & -> & <- & <- & Pf). exists (b :: l0), r0. cbn [filter app]. now rewrite Pa.
    - destruct (IH _ _ _ E) as (l0 & r0 & -> & <- & <- & Pf). exists (a :: l0), r0. cbn [filter app]. now rewrite Pa.
  Qed.
  Lemma in_vars_filter x p q : In x (vars (filter p q)) -> In x (vars q).
  Proof. rewrite !in_vars. intros (f & Hf & Hx). apply filter_In in Hf as [Hf _]. eauto. Qed.
  Lemma in_binds_filter x p q : In x (binds (filter p q)) -> In x (binds q).
  Proof. rewrite !in_binds. intros (f & Hf & Hx). apply filter_In in Hf as [Hf _]. eauto. Qed.

  Lemma wf_more B B' f : has_body f = false -> incl B B' -> wf B f -> wf B' f.
  Proof.
    assert (K : forall v, incl B B' -> known_arg B v -> known_arg B' v) by (intros []; simpl; auto).
    destruct f; try discriminate; intros _ Hi; simpl; auto.
    - intros (A1 & A2 & [A3|A3]); auto.
    - intros (A1 & A2 & A3 & A4). auto.
  Qed.
  Lemma tidy_other B B' f : has_body f = false -> tidy B f -> tidy B' f.
  Proof. destruct f; try discriminate; auto. Qed.
  Lemma moved_no_body f : is_moved f = true -> has_body f = false.
  Proof. destruct f; try discriminate; auto. Qed.
  Lemma moved_wf B B' f : is_moved f = true -> wf B f -> wf B' f.
  Proof. destruct f; try discriminate; auto. Qed.

  Section Front.
    Variables (B : list string) (q c : list fol).
    Hypothesis Hw : wfs B q.
    Hypothesis Ht : tidies [] B q.
    Hypothesis Hc : Permutation (filter is_moved q) c.
    Notation late := (fun f => negb (is_moved f)).
    Let r := c ++ filter late q.

    Lemma front_In f : In f q <-> In f r.
    Proof.
      unfold r. rewrite in_app_iff, filter_In. split.
      - intros H. destruct (is_moved f) eqn:E; [left|right; auto].
        apply (Permutation_in _ Hc). now apply filter_In.
      - intros [H|[H _]]; auto. apply (Permutation_in _ (Permutation_sym Hc)) in H. now apply filter_In in H.
    Qed.
    Lemma in_c f : In f c <-> In f q /\ is_moved f = true.
    Proof.
      rewrite <- filter_In. split; intros H; [eapply Permutation_in; [symmetry|]|eapply Permutation_in]; eauto.
    Qed.

    Lemma late_alike l f r0 : q = l ++ f :: r0 -> has_body f = true ->
      alike (fol_vars f) (ctx B l) (ctx B (c ++ filter late l)).
    Proof.
      intros Eq Hf x Hx. rewrite ctx_app, !in_ctx.
      rewrite wfs_every in Hw. rewrite tidies_every in Ht. destruct Ht as [Ht1 Ht2].
      pose proof (Ht2 _ _ _ Eq Hf x Hx) as [P1 P2]. rewrite app_nil_r in P2.
      split.
      - intros [H|H]; auto. apply in_binds in H as (g & Hg & Hgx).
        destruct (is_moved g) eqn:E.
        + right; left. apply in_binds. exists g. split; auto. apply in_c. split; auto. rewrite Eq. apply in_or_app. auto.
        + left. apply in_binds. exists g. split; auto. apply filter_In. rewrite E. auto.
      - intros [H|[H|H]]; auto; [left; now apply in_binds_filter in H|].
        apply in_binds in H as (g & Hg & Hgx). apply in_c in Hg as [Hg Hm].
        apply fol_binds_vars in Hgx as Hgv.
        rewrite Eq in Hg. apply in_app_or in Hg as [Hg|[<-|Hg]].
        + left. apply in_binds. eauto.
        + now rewrite (moved_no_body _ Hm) in Hf.
        + destruct (in_dec string_dec x (fol_binds f)) as [Hb|Hb].
          * exfalso. apply (P1 Hb). apply in_vars. exists g. split; auto. now apply filter_In.
          * destruct (P2 Hb) as [H|[H1 H2]]; [now apply in_ctx in H|]. exfalso. apply H2. apply in_vars. eauto.
    Qed.
    Lemma late_incl l f r0 : q = l ++ f :: r0 -> incl (ctx B l) (ctx B (c ++ filter late l)).
    Proof.
      intros Eq x Hx. apply in_ctx in Hx as [H|H]; apply in_ctx; auto. left.
      apply in_binds in H as (g & Hg & Hgx). rewrite binds_app. apply in_or_app.
      destruct (is_moved g) eqn:E; [left|right]; apply in_binds; exists g; split; auto.
      - apply in_c. split; auto. rewrite Eq. apply in_or_app. auto.
      - apply filter_In. rewrite E. auto.
    Qed.

    Lemma app_split {A} (a b l r' : list A) f : a ++ b = l ++ f :: r' ->
      (exists r1, a = l ++ f :: r1) \/ (exists l1, l = a ++ l1 /\ b = l1 ++ f :: r').
    Proof.
      revert l. induction a as [|x a IH]; intros l E; [right; exists l; auto|].
      destruct l as [|y l]; injection E as -> E; [left; exists a; auto|].
      destruct (IH _ E) as [(r1 & ->)|(l1 & -> & ->)]; [left|right]; simpl; eauto.
    Qed.

    Lemma front_wf : wfs B r.
    Proof.
      pose proof Hw as Hw'. rewrite wfs_every in Hw'. apply wfs_every. intros l f r' E.
      apply app_split in E as [(r1 & Ec)|(l1 & -> & E)].
      - assert (Hf : In f c) by (rewrite Ec; apply in_or_app; simpl; auto).
        apply in_c in Hf as [Hf Hm]. apply in_split in Hf as (l0 & r0 & Eq).
        eapply moved_wf; eauto.
      - apply filter_split in E as (l0 & r0 & Eq & <- & <- & Hl).
        destruct (has_body f) eqn:Hf.
        + eapply wf_near; [exact (Hw' _ _ _ Eq)|]. apply alike_near. now apply (late_alike l0 f r0).
        + eapply wf_more; eauto. eapply late_incl; eauto.
    Qed.
    Lemma front_tidy : tidies [] B r.
    Proof.
      pose proof Ht as Ht'. rewrite tidies_every in Ht'. destruct Ht' as [T1 T2]. apply tidies_every. split.
      - intros l f r' E. apply app_split in E as [(r1 & Ec)|(l1 & -> & E)].
        + assert (Hf : In f c) by (rewrite Ec; apply in_or_app; simpl; auto).
          apply in_c in Hf as [Hf Hm]. apply in_split in Hf as (l0 & r0 & Eq).
          eapply tidy_other; [now apply moved_no_body|]. eapply T1; eauto.
        + apply filter_split in E as (l0 & r0 & Eq & <- & <- & Hl).
          destruct (has_body f) eqn:Hf.
          * eapply tidy_alike; [exact (T1 _ _ _ Eq)|]. now apply (late_alike l0 f r0).
          * eapply tidy_other; eauto.
      - intros l f r' E. apply app_split in E as [(r1 & Ec)|(l1 & -> & E)].
        + assert (Hf : In f c) by (rewrite Ec; apply in_or_app; simpl; auto).
          apply in_c in Hf as [Hf Hm]. intros F. rewrite (moved_no_body _ Hm) in F. discriminate.
        + apply filter_split in E as (l0 & r0 & Eq & <- & <- & Hl).
          intros Hf x Hx. destruct (T2 _ _ _ Eq Hf x Hx) as [P1 P2]. rewrite app_nil_r in *. split.
          * intros _ F. apply in_vars in F as (g & Hg & _). apply filter_In in Hg as [Hg E].
            apply filter_In in Hg as [_ Hg]. rewrite E in Hg. discriminate.
          * intros N. destruct (P2 N) as [H|[H1 H2]].
            -- left. eapply late_incl; eauto.
            -- right. split.
               ++ rewrite vars_app, in_app_iff. intros [F|F]; [|now apply in_vars_filter in F].
                  apply in_vars in F as (g & Hg & Hgx). apply in_c in Hg as [Hg Hm].
                  rewrite Eq in Hg. apply in_app_or in Hg as [Hg|[<-|Hg]].
                  ** apply H1. apply in_vars. eauto.
                  ** now rewrite (moved_no_body _ Hm) in Hf.
                  ** apply H2. apply in_vars. eauto.
               ++ intros F. now apply in_vars_filter in F.
    Qed.
    Lemma front_holds s : const_assignment s -> (all_hold ext B q s <-> all_hold ext B r s).
    Proof.
      intros Hs. split; apply reorder_holds; auto using front_wf, front_tidy, front_In.
      intros g. symmetry. apply front_In.
    Qed.
  End Front.
End Order.
