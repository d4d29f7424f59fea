(** * The fragment of English: its questions as first-order queries *)

From Coq Require Import ZArith String Ascii List Bool Lia Arith.
From Verif Require Import Py PyFacts DatalogSpec DatalogProofs FolSpec FolProofs FolProofs2 FragmentSpec.
Import ListNotations.
Local Open Scope string_scope.
Local Open Scope list_scope.

(** ** queries *)

Definition unary (p x : string) : fol := FAtom (mkAtom p [VVar x]).
Definition binary (p x y : string) : fol := FAtom (mkAtom p [VVar x; VVar y]).

(** the queries have no other variable in common *)
Definition only (x : string) (q1 q2 : list fol) : Prop := forall z, In z (vars q1) -> In z (vars q2) -> z = x.

Definition det_fol (d : det) (y : string) (range body : list fol) : list fol :=
  match d with
  | Some_ _ => range ++ body
  | No => [FNot true (range ++ body)]
  | Every => [FAll y range body]
  | Number _ k => [FDet Eq k (range ++ body)]
  | MoreThan _ k => [FDet Gt k (range ++ body)]
  end.

(** [nbar_fol x b q]: [q] says that [x] is such a [b] *)
Inductive nbar_fol : string -> nbar -> list fol -> Prop :=
| nf_noun x n : nbar_fol x (Noun n) [unary (snd n) x]
| nf_adj x a b q : nbar_fol x b q -> nbar_fol x (Adj a b) (unary (snd a) x :: q)
| nf_rel x b r q1 q2 : nbar_fol x b q1 -> rcl_fol x r q2 -> only x q1 q2 -> nbar_fol x (Rel b r) (q1 ++ q2)
with rcl_fol : string -> rcl -> list fol -> Prop :=
| rf_that x v q : vp_fol x v q -> rcl_fol x (That v) q
| rf_and x r1 r2 q1 q2 : rcl_fol x r1 q1 -> rcl_fol x r2 q2 -> only x q1 q2 -> rcl_fol x (And r1 r2) (q1 ++ q2)
with vp_fol : string -> vp -> list fol -> Prop :=
| vf_active x y t o q : np_fol x y o (binary (snd t) x y) q -> x <> y -> vp_fol x (Active t o) q
| vf_passive x y t o q : np_fol x y o (binary (snd t) y x) q -> x <> y -> vp_fol x (Passive t o) q
| vf_not x v q : vp_fol x v q -> vp_fol x (Not v) [FNot false q]
with np_fol : string -> string -> np -> fol -> list fol -> Prop :=
| pf_bare x y b body r : nbar_fol y b r -> ~ In x (vars r) -> np_fol x y (Bare b) body (r ++ [body])
| pf_det x y d b body r : nbar_fol y b r -> ~ In x (vars r) -> np_fol x y (Det d b) body (det_fol d y r [body]).

Scheme nbar_fol_mut := Minimality for nbar_fol Sort Prop
  with rcl_fol_mut := Minimality for rcl_fol Sort Prop
  with vp_fol_mut := Minimality for vp_fol Sort Prop
  with np_fol_mut := Minimality for np_fol Sort Prop.
Combined Scheme fragment_fol_ind from nbar_fol_mut, rcl_fol_mut, vp_fol_mut, np_fol_mut.

Lemma vars_app q1 q2 : vars (q1 ++ q2) = vars q1 ++ vars q2.
Proof. apply flat_map_app. Qed.
Lemma binds_app q1 q2 : binds (q1 ++ q2) = binds q1 ++ binds q2.
Proof. apply flat_map_app. Qed.
Lemma preds_app q1 q2 : preds (q1 ++ q2) = preds q1 ++ preds q2.
Proof. apply flat_map_app. Qed.

Lemma det_vars d y r q z : In z (vars (det_fol d y r q)) <-> In z (vars r) \/ In z (vars q) \/ d = Every /\ z = y.
Proof.
  destruct d; unfold vars in *; cbn [det_fol flat_map fol_vars]; rewrite ?app_nil_r, ?flat_map_app, ?in_app_iff; cbn [In];
    rewrite ?in_app_iff; intuition (try discriminate; subst; auto).
Qed.

(** the first variable of a noun phrase is what it is about *)
Lemma nbar_head x b q : nbar_fol x b q -> exists p q', q = unary p x :: q'.
Proof.
  revert x b q. fix IH 4. intros x b q H. destruct H as [x n|x a b q H|x b r q1 q2 H _ _]; eauto.
  destruct (IH _ _ _ H) as (p & q' & ->). cbn. eauto.
Qed.
Lemma nbar_var x b q : nbar_fol x b q -> In x (vars q) /\ In x (binds q) /\ exists l, binds q = x :: l.
Proof. intros H. destruct (nbar_head _ _ _ H) as (p & q' & ->). split; [now left|]. split; [now left|]. eexists. reflexivity. Qed.

(** ** after a query *)

Definition after (B : list string) (q : list fol) : list string := fold_left (fun B f => fol_binds f ++ B) q B.
Lemma in_after q : forall B x, In x (after B q) <-> In x (binds q) \/ In x B.
Proof.
  induction q as [|f q IH]; intros B x; [cbn; tauto|]. change (after B (f :: q)) with (after (fol_binds f ++ B) q).
  change (binds (f :: q)) with (fol_binds f ++ binds q). rewrite IH, !in_app_iff. tauto.
Qed.
Lemma all_hold_app ext q1 : forall B q2 s, all_hold ext B (q1 ++ q2) s <-> all_hold ext B q1 s /\ all_hold ext (after B q1) q2 s.
Proof. induction q1 as [|f q1 IH]; intros B q2 s; [cbn; tauto|]. change (after B (f :: q1)) with (after (fol_binds f ++ B) q1).
  cbn [app all_hold]. rewrite IH. tauto. Qed.
Lemma wfs_app GA H q1 : forall B q2, wfs GA H B (q1 ++ q2) <-> wfs GA H B q1 /\ wfs GA H (after B q1) q2.
Proof. induction q1 as [|f q1 IH]; intros B q2; [cbn; tauto|]. change (after B (f :: q1)) with (after (fol_binds f ++ B) q1).
  cbn [app wfs]. rewrite IH. tauto. Qed.

Section Fragment.
  Variable GA : fatom -> Prop.
  Variable lx : lexicon.
  Hypothesis noun_ok : forall n x, In n (lx_nouns lx) -> GA (mkAtom (snd n) [VVar x]).
  Hypothesis adj_ok : forall n x, In n (lx_adjectives lx) -> GA (mkAtom (snd n) [VVar x]).
  Hypothesis verb_ok : forall n x y, In n (lx_verbs lx) -> GA (mkAtom (snd n) [VVar x; VVar y]).

  (** the variables that have a value already, as far as the query has them *)
  Definition outside (x : string) (B : list string) (q : list fol) : Prop := forall z, In z (vars q) -> In z B -> z = x.

  Lemma outside_l x B q1 q2 : outside x B (q1 ++ q2) -> outside x B q1.
  Proof. intros H z Hz. apply H. rewrite vars_app. apply in_or_app. auto. Qed.
  Lemma outside_r x B q1 q2 : only x q1 q2 -> outside x B (q1 ++ q2) -> outside x (after B q1) q2.
  Proof.
    intros O H z Hz Hb. apply in_after in Hb as [Hb|Hb].
    - apply O; auto. now apply binds_vars.
    - apply H; auto. rewrite vars_app. apply in_or_app. auto.
  Qed.

  (** *** well-formed *)

  Lemma fragment_wf :
    (forall x b q, nbar_fol x b q -> nbar_in lx b -> forall B, outside x B q -> wfs GA [] B q) /\
    (forall x r q, rcl_fol x r q -> rcl_in lx r -> forall B, outside x B q -> wfs GA [] B q) /\
    (forall x v q, vp_fol x v q -> vp_in lx v -> forall B, outside x B q -> wfs GA [] B q) /\
    (forall x y o body q, np_fol x y o body q -> np_in lx o -> (forall B, wfs GA [] B [body]) ->
       x <> y -> (forall z, In z (fol_vars body) -> z = x \/ z = y) -> forall B, outside x B q -> wfs GA [] B q).
  Proof.
    apply fragment_fol_ind; cbn [nbar_in rcl_in vp_in np_in].
    - intros x n Hin B _. split; [now apply noun_ok|exact I].
    - intros x a b q H IH (Ha & Hb) B O. split; [now apply adj_ok|]. apply IH; auto.
      intros z Hz Hb'. apply in_app_or in Hb' as [Hb'|Hb']; [destruct Hb' as [<-|[]]; reflexivity|].
      apply O; auto. unfold vars. cbn. auto.
    - intros x b r q1 q2 H1 IH1 H2 IH2 On (Hb & Hr) B O. rewrite wfs_app. split.
      + apply IH1; auto. now apply outside_l in O.
      + apply IH2; auto. now apply outside_r.
    - auto.
    - intros x r1 r2 q1 q2 H1 IH1 H2 IH2 On (Hb & Hr) B O. rewrite wfs_app. split.
      + apply IH1; auto. now apply outside_l in O.
      + apply IH2; auto. now apply outside_r.
    - intros x y t o q H IH N (Ht & Ho) B O. apply IH; auto.
      + intros B'. split; [now apply verb_ok|exact I].
      + cbn. intuition.
    - intros x y t o q H IH N (Ht & Ho) B O. apply IH; auto.
      + intros B'. split; [now apply verb_ok|exact I].
      + cbn. intuition.
    - intros x v q H IH Hv B O. split; [|exact I]. rewrite wf_not. split; [apply local_nil|]. apply IH; auto.
      intros z Hz. apply O. unfold vars. cbn. now rewrite app_nil_r.
    - intros x y b body r H IH Nx Hb Hbody N Hv B O. rewrite wfs_app. split; auto.
      apply IH; auto. intros z Hz Hzb. exfalso. apply Nx. assert (z = x) as <-; auto.
      apply O; auto. rewrite vars_app. apply in_or_app. auto.
    - intros x y d b body r H IH Nx (_ & Hb) Hbody N Hv B O.
      assert (Or : forall z, In z (vars r) -> ~ In z B).
      { intros z Hz Hzb. apply Nx. assert (z = x) as <-; auto. apply O; auto. apply det_vars. auto. }
      assert (Wr : wfs GA [] B r).
      { apply IH; auto. intros z Hz Hzb. exfalso. eapply Or; eauto. }
      assert (Wq : wfs GA [] B (r ++ [body])) by (rewrite wfs_app; auto).
      destruct (nbar_var _ _ _ H) as (Yv & Yb & _).
      destruct d; cbn [det_fol]; [exact Wq| | | |].
      + split; [|exact I]. rewrite wf_not. split; [apply local_nil|auto].
      + split; [|exact I]. rewrite wf_all. split; [now apply Or|]. split; [intros []|]. split; [auto|].
        split; [apply local_nil|]. split; [auto|]. split; [apply local_nil|auto].
      + split; [|exact I]. rewrite wf_det. split; [apply local_nil|auto].
      + split; [|exact I]. rewrite wf_det. split; [apply local_nil|auto].
  Qed.

  (** *** which variables get a value *)

  Lemma single_binds :
    (forall x b q, nbar_fol x b q -> nbar_single b -> forall z, In z (binds q) -> z = x) /\
    (forall x r q, rcl_fol x r q -> rcl_single r -> binds q = []) /\
    (forall x v q, vp_fol x v q -> vp_single v -> binds q = []) /\
    (forall x y o body q, np_fol x y o body q -> np_single o -> binds q = []).
  Proof.
    apply fragment_fol_ind; cbn [nbar_single rcl_single vp_single np_single]; auto.
    - intros x n _ z [<-|[]]. reflexivity.
    - intros x a b q H IH Hb z [<-|Hz]; auto.
    - intros x b r q1 q2 H1 IH1 H2 IH2 On (Hb & Hr) z. rewrite binds_app, (IH2 Hr), app_nil_r. auto.
    - intros x r1 r2 q1 q2 H1 IH1 H2 IH2 On (Hb & Hr). rewrite binds_app, (IH1 Hb), (IH2 Hr). reflexivity.
    - intros x y b body r H IH Nx [].
    - intros x y d b body r H IH Nx Hd. destruct d; cbn in *; tauto.
  Qed.

  (** *** true *)
  Variable ext : string -> list value -> Prop.

  Lemma all_hold_range x b q B s : nbar_fol x b q -> nbar_in lx b -> const_assignment s -> (forall z, In z (vars q) -> ~ In z B) ->
    (all_hold ext B q s <-> all_hold ext (x :: B) q s).
  Proof.
    intros H Hb Hs O. assert (W : wfs GA [] B q).
    { apply (proj1 fragment_wf x b q H Hb B). intros z Hz Hzb. exfalso. eapply O; eauto. }
    destruct (nbar_head _ _ _ H) as (p & q' & ->). destruct W as (_ & W).
    cbn [all_hold]. cbn [fol_binds unary fa_args arg_vars flat_map app] in *.
    rewrite (all_hold_near ext GA [] q' (x :: B) (x :: x :: B) s W); [reflexivity| |exact Hs].
    intros z _. cbn. tauto.
  Qed.

  Definition update (s : assignment) (x : string) (c : value) : assignment :=
    fun z => if String.eqb z x then c else s z.
  Lemma update_const s x c : const_assignment s -> constant c = true -> const_assignment (update s x c).
  Proof. intros Hs Hc z. unfold update. destruct (String.eqb z x); auto. Qed.
  Lemma update_same s x c : update s x c x = c.
  Proof. unfold update. now rewrite String.eqb_refl. Qed.
  Lemma update_other s x c z : z <> x -> update s x c z = s z.
  Proof. intros N. unfold update. destruct (String.eqb_spec z x); [contradiction|reflexivity]. Qed.

  (** [says x q P]: [q] can be met exactly when [x] is [P] *)
  Definition says (x : string) (q : list fol) (P : value -> Prop) : Prop :=
    forall B s, In x B -> outside x B q -> const_assignment s -> (possible ext B q s <-> P (s x)).

  Lemma says_range x b q P B s c : nbar_fol x b q -> nbar_in lx b -> says x q P -> const_assignment s ->
    (forall z, In z (vars q) -> ~ In z B) -> (in_range ext B x q s c <-> individual c /\ P c).
  Proof.
    intros H Hb HP Hs O. assert (Nx : ~ In x B) by (apply O; apply (nbar_var _ _ _ H)).
    assert (O' : outside x (x :: B) q).
    { intros z Hz [<-|Hzb]; auto. exfalso. eapply O; eauto. }
    split.
    - intros (s' & Hs' & Hst & <- & Hh). split; [apply Hs'|].
      apply (HP (x :: B) s'); auto; [now left|]. exists s'. split; auto. split; [apply same_on_refl|].
      apply (all_hold_range x b q B s'); auto.
    - intros (Hc & HPc). destruct (HP (x :: B) (update s x c)) as (_ & D); auto; [now left|now apply update_const|].
      rewrite update_same in D. destruct (D HPc) as (s' & Hs' & Hst & Hh). exists s'. split; auto. split; [|split].
      + intros z Hz. rewrite <- (Hst z) by now right. symmetry. apply update_other. congruence.
      + rewrite <- (Hst x) by now left. apply update_same.
      + apply (all_hold_range x b q B s'); auto.
  Qed.

  Lemma says_app x q1 q2 P1 P2 : (forall B, outside x B q1 -> wfs GA [] B q1) -> only x q1 q2 ->
    says x q1 P1 -> says x q2 P2 -> says x (q1 ++ q2) (fun c => P1 c /\ P2 c).
  Proof.
    intros W On H1 H2 B s Hx O Hs. pose proof (outside_l _ _ _ _ O) as O1. pose proof (outside_r _ _ _ _ On O) as O2.
    assert (Hx' : In x (after B q1)) by (apply in_after; auto). split.
    - intros (s' & Hs' & Hst & Hh). apply all_hold_app in Hh as (Hh1 & Hh2). split.
      + apply (H1 B s); auto. exists s'. auto.
      + rewrite (Hst x Hx). apply (H2 (after B q1) s'); auto. exists s'. split; auto. split; auto. apply same_on_refl.
    - intros (HP1 & HP2). apply (H1 B s) in HP1 as (s1 & Hs1 & Hst1 & Hh1); auto.
      rewrite (Hst1 x Hx) in HP2. apply (H2 (after B q1) s1) in HP2 as (s2 & Hs2 & Hst2 & Hh2); auto.
      exists s2. split; auto. split.
      + intros z Hz. rewrite (Hst1 z Hz). apply Hst2. apply in_after. auto.
      + apply all_hold_app. split; auto. apply (all_hold_stable ext GA [] q1 B s1 s2); auto.
        intros z _ Hz. apply Hst2. apply in_after. tauto.
  Qed.

  Lemma says_unary x p : says x [unary p x] (fun c => ext p [c]).
  Proof.
    intros B s Hx _ Hs. unfold possible. cbn. split.
    - intros (s' & _ & Hst & Hh & _). now rewrite (Hst x Hx).
    - intros Hh. exists s. split; auto. split; [apply same_on_refl|auto].
  Qed.

  (** *** a noun phrase with a determiner *)
  Section Phrase.
    Variables (x y : string) (b : nbar) (r : list fol) (a : fatom) (A : value -> Prop) (P : value -> value -> Prop).
    Hypothesis Hr : nbar_fol y b r.
    Hypothesis Hb : nbar_in lx b.
    Hypothesis HA : says y r A.
    Hypothesis Nx : ~ In x (vars r).
    Hypothesis Nxy : x <> y.
    Hypothesis Hvars : forall z, In z (arg_vars (fa_args a)) -> z = x \/ z = y.
    Hypothesis HP : forall s, ext (fa_pred a) (map (inst s) (fa_args a)) <-> P (s x) (s y).
    Variables (B : list string) (s : assignment).
    Hypothesis Hx : In x B.
    Hypothesis HB : forall z, In z (vars r) -> ~ In z B.
    Hypothesis Hs : const_assignment s.

    Lemma y_new : ~ In y B.
    Proof. apply HB, (nbar_var _ _ _ Hr). Qed.

    Lemma phrase_hold s' : all_hold ext B (r ++ [FAtom a]) s' <-> all_hold ext B r s' /\ P (s' x) (s' y).
    Proof. rewrite all_hold_app. cbn [all_hold holds]. rewrite HP. tauto. Qed.

    Lemma range_iff s' c : const_assignment s' -> (in_range ext B y r s' c <-> individual c /\ A c).
    Proof. intros Hs'. now apply (says_range y b). Qed.

    Lemma phrase_some : possible ext B (r ++ [FAtom a]) s <-> exists c, individual c /\ A c /\ P (s x) c.
    Proof.
      split.
      - intros (s' & Hs' & Hst & Hh). apply phrase_hold in Hh as (Hh & Hp). exists (s' y). rewrite (Hst x Hx).
        split; [apply Hs'|]. split; auto. apply (range_iff s'); auto. exists s'. split; auto. split; [apply same_on_refl|auto].
      - intros (c & Hc & HAc & Hp). assert (R : in_range ext B y r s c) by (apply range_iff; auto).
        destruct R as (s' & Hs' & Hst & Hy & Hh). exists s'. split; auto. split; auto.
        apply phrase_hold. split; auto. now rewrite <- (Hst x Hx), Hy.
    Qed.

    Lemma phrase_every : possible ext B [FAll y r [FAtom a]] s <->
      (exists c, individual c /\ A c) /\ forall c, individual c -> A c -> P (s x) c.
    Proof.
      assert (G : forall s' c, const_assignment s' -> same_on B s s' ->
        ((exists s2, const_assignment s2 /\ same_on B s' s2 /\ s2 y = c /\ all_hold ext (y :: B) [FAtom a] s2) <->
         individual c /\ P (s x) c)).
      { intros s' c Hs' Hst. split.
        - intros (s2 & Hs2 & Hst2 & <- & Hh & _). split; [apply Hs2|]. cbn [holds] in Hh. rewrite HP in Hh.
          now rewrite (Hst x Hx), (Hst2 x Hx).
        - intros (Hc & Hp). exists (update s' y c). split; [now apply update_const|]. split; [|split].
          + intros z Hz. symmetry. apply update_other. intros ->. now apply y_new.
          + apply update_same.
          + cbn [all_hold holds]. split; [|exact I]. rewrite HP, update_same, update_other by exact Nxy. now rewrite <- (Hst x Hx). }
      split.
      - intros (s' & Hs' & Hst & Hh & _). rewrite holds_all in Hh. destruct Hh as (H1 & H2).
        apply range_iff in H1; auto. split; [eauto|]. intros c Hc HAc.
        apply (G s' c); auto. apply H2. apply range_iff; auto.
      - intros ((c & Hc & HAc) & Hall). exists (update s y c). assert (Hu : const_assignment (update s y c)) by now apply update_const.
        assert (Hst : same_on B s (update s y c)).
        { intros z Hz. symmetry. apply update_other. intros ->. now apply y_new. }
        split; auto. split; auto. cbn [all_hold]. split; [|exact I]. rewrite holds_all. split.
        + apply range_iff; auto. rewrite update_same. auto.
        + intros v Hv. apply range_iff in Hv as (Hv & HAv); auto. apply G; auto.
    Qed.

    (** counting *)
    Lemma phrase_number n : nbar_single b ->
      (number ext B (r ++ [FAtom a]) s n <-> how_many (fun c => A c /\ P (s x) c) n).
    Proof.
      intros Hsg. destruct (nbar_var _ _ _ Hr) as (_ & _ & l & El).
      assert (Eb : exists l', binds (r ++ [FAtom a]) = y :: l') by (rewrite binds_app, El; cbn; eauto).
      assert (Bxy : forall z, In z (binds (r ++ [FAtom a])) -> z = x \/ z = y).
      { intros z. rewrite binds_app, in_app_iff. intros [Hz|Hz].
        - right. eapply (proj1 single_binds); eauto.
        - cbn in Hz. rewrite app_nil_r in Hz. auto. }
      set (row := fun c => map (update s y c) (binds (r ++ [FAtom a]))).
      assert (Hrow : forall s', same_on B s s' -> map s' (binds (r ++ [FAtom a])) = row (s' y)).
      { intros s' Hst. apply map_ext_in. intros z Hz. destruct (Bxy z Hz) as [->| ->].
        - rewrite update_other by exact Nxy. symmetry. now apply Hst.
        - now rewrite update_same. }
      assert (Hhd : forall c, hd VNone (row c) = c).
      { intros c. unfold row. destruct Eb as (l' & ->). cbn. apply update_same. }
      assert (Sol : forall c, (exists s', const_assignment s' /\ same_on B s s' /\ all_hold ext B (r ++ [FAtom a]) s' /\ s' y = c) <->
        individual c /\ A c /\ P (s x) c).
      { intros c. split.
        - intros (s' & Hs' & Hst & Hh & <-). apply phrase_hold in Hh as (Hh & Hp). rewrite (Hst x Hx).
          assert (R : in_range ext B y r s' (s' y)) by (exists s'; split; auto; split; [apply same_on_refl|auto]).
          apply range_iff in R; auto. tauto.
        - intros (Hc & HAc & Hp). assert (R : in_range ext B y r s c) by (apply range_iff; auto).
          destruct R as (s' & Hs' & Hst & Hy & Hh). exists s'. split; auto. split; auto. split; auto.
          apply phrase_hold. split; auto. now rewrite <- (Hst x Hx), Hy. }
      split.
      - intros (rows & ND & Hl & Hin). exists (map (hd VNone) rows). split; [|split].
        + assert (I : forall r1 r2, In r1 rows -> In r2 rows -> hd VNone r1 = hd VNone r2 -> r1 = r2).
          { intros r1 r2 H1 H2 E. apply Hin in H1 as (s1 & _ & Hst1 & _ & ->), H2 as (s2 & _ & Hst2 & _ & ->).
            rewrite !Hrow in * by assumption. rewrite !Hhd in E. now rewrite E. }
          clear -ND I. induction ND as [|r0 rows NI ND IH]; [constructor|]. cbn. constructor.
          * intros Hm. apply in_map_iff in Hm as (r1 & E & H1). apply NI. rewrite (I r0 r1); auto; [now left|now right].
          * apply IH. intros r1 r2 H1 H2. apply I; now right.
        + now rewrite map_length.
        + intros c. rewrite in_map_iff. rewrite <- Sol. split.
          * intros (r0 & <- & H0). apply Hin in H0 as (s' & Hs' & Hst & Hh & ->). exists s'. rewrite Hrow, Hhd by assumption. auto.
          * intros (s' & Hs' & Hst & Hh & <-). exists (row (s' y)). split; auto. apply Hin. exists s'. rewrite Hrow; auto.
      - intros (cs & ND & Hl & Hin). exists (map row cs). split; [|split].
        + clear Hl Hin. induction ND as [|c cs NI ND IH]; [constructor|]. cbn. constructor; auto.
          intros Hm. apply in_map_iff in Hm as (c1 & E & H1). apply NI. rewrite <- (Hhd c), <- E, Hhd. exact H1.
        + now rewrite map_length.
        + intros r0. rewrite in_map_iff. split.
          * intros (c & <- & Hc). apply Hin in Hc. apply Sol in Hc as (s' & Hs' & Hst & Hh & <-). exists s'. rewrite Hrow; auto.
          * intros (s' & Hs' & Hst & Hh & ->). exists (s' y). rewrite Hrow by assumption. split; auto. apply Hin. apply Sol. eauto 6.
    Qed.
  End Phrase.

  Lemma possible_one B f s : (forall s', same_on B s s' -> const_assignment s' -> (holds ext B f s' <-> holds ext B f s)) ->
    const_assignment s -> (possible ext B [f] s <-> holds ext B f s).
  Proof.
    intros Hf Hs. split.
    - intros (s' & Hs' & Hst & Hh & _). now apply (Hf s').
    - intros Hh. exists s. split; auto. split; [apply same_on_refl|]. cbn. auto.
  Qed.

  Lemma compare_gt n k : Z.compare (Z.of_nat n) k = Gt <-> (Z.of_nat n > k)%Z.
  Proof. rewrite Z.compare_gt_iff. lia. Qed.

  Lemma fragment_true :
    (forall x b q, nbar_fol x b q -> nbar_in lx b -> nbar_counts b -> says x q (nbar_true ext b)) /\
    (forall x r q, rcl_fol x r q -> rcl_in lx r -> rcl_counts r -> says x q (rcl_true ext r)) /\
    (forall x v q, vp_fol x v q -> vp_in lx v -> vp_counts v -> says x q (vp_true ext v)) /\
    (forall x y o body q, np_fol x y o body q -> np_in lx o -> np_counts o -> forall a P, body = FAtom a ->
       x <> y -> (forall z, In z (arg_vars (fa_args a)) -> z = x \/ z = y) ->
       (forall s, ext (fa_pred a) (map (inst s) (fa_args a)) <-> P (s x) (s y)) ->
       says x q (fun c => np_true ext o (P c))).
  Proof.
    destruct fragment_wf as (Wn & Wr & Wv & _).
    apply fragment_fol_ind; cbn [nbar_in rcl_in vp_in np_in nbar_counts rcl_counts vp_counts np_counts nbar_true rcl_true vp_true np_true]; auto.
    - intros x n _ _. apply says_unary.
    - intros x a b q H IH (Ha & Hb) Hc.
      apply (says_app x [unary (snd a) x] q (fun c => ext (snd a) [c])); auto.
      + intros B _. split; [now apply adj_ok|exact I].
      + intros z [<-|[]] _. reflexivity.
      + apply says_unary.
    - intros x b r q1 q2 H1 IH1 H2 IH2 On (Hb & Hr) (Cb & Cr). apply says_app; auto. intros B. apply (Wn x b); auto.
    - intros x r1 r2 q1 q2 H1 IH1 H2 IH2 On (Hb & Hr) (Cb & Cr). apply says_app; auto. intros B. apply (Wr x r1); auto.
    - intros x y t o q H IH N (Ht & Ho) Hc.
      apply (IH Ho Hc (mkAtom (snd t) [VVar x; VVar y]) (fun c d => ext (snd t) [c; d])); auto; try reflexivity. cbn. intuition.
    - intros x y t o q H IH N (Ht & Ho) Hc.
      apply (IH Ho Hc (mkAtom (snd t) [VVar y; VVar x]) (fun c d => ext (snd t) [d; c])); auto; try reflexivity. cbn. intuition.
    - intros x v q H IH Hv Hc B s Hx O Hs. assert (O' : outside x B q).
      { intros z Hz. apply O. unfold vars. cbn. now rewrite app_nil_r. }
      rewrite possible_one; auto.
      + rewrite holds_not. now rewrite (IH Hv Hc B s).
      + intros s' Hst Hs'. rewrite !holds_not. rewrite (IH Hv Hc B s), (IH Hv Hc B s') by assumption. now rewrite (Hst x Hx).
    - intros x y b body r H IH Nx Hb Hc a P -> N Hvars HP B s Hx O Hs.
      apply (phrase_some x y b); auto.
      intros z Hz Hzb. apply Nx. assert (z = x) as <-; auto. apply O; auto. rewrite vars_app. apply in_or_app. auto.
    - intros x y d b body r H IH Nx (Hd & Hb) (Cb & Cd) a P -> N Hvars HP B s Hx O Hs.
      assert (HB : forall z, In z (vars r) -> ~ In z B).
      { intros z Hz Hzb. apply Nx. assert (z = x) as <-; auto. apply O; auto. apply det_vars. auto. }
      specialize (IH Hb Cb).
      assert (Hsome : forall s, const_assignment s -> (possible ext B (r ++ [FAtom a]) s <-> exists c, individual c /\ nbar_true ext b c /\ P (s x) c)).
      { intros s0 Hs0. apply (phrase_some x y b); auto. }
      destruct d as [w| | |w k|w k]; cbn [det_fol quant].
      + now apply Hsome.
      + rewrite possible_one; auto.
        * rewrite holds_not. now rewrite Hsome.
        * intros s' Hst Hs'. rewrite !holds_not, !Hsome by assumption. now rewrite (Hst x Hx).
      + apply (phrase_every x y b); auto.
      + assert (Hn : forall s n, const_assignment s -> (number ext B (r ++ [FAtom a]) s n <-> how_many (fun c => nbar_true ext b c /\ P (s x) c) n)).
        { intros s0 n Hs0. apply (phrase_number x y b); auto. apply Cd. exact I. }
        assert (Hh : forall s, const_assignment s -> (holds ext B (FDet Eq k (r ++ [FAtom a])) s <->
          exists n, how_many (fun c => nbar_true ext b c /\ P (s x) c) n /\ Z.of_nat n = k)).
        { intros s0 Hs0. rewrite holds_det. split; intros (n & Hn1 & Hn2); exists n; (split; [now apply (Hn s0)|now apply Z.compare_eq_iff]). }
        rewrite possible_one; auto.
        intros s' Hst Hs'. rewrite !Hh by assumption. now rewrite (Hst x Hx).
      + assert (Hn : forall s n, const_assignment s -> (number ext B (r ++ [FAtom a]) s n <-> how_many (fun c => nbar_true ext b c /\ P (s x) c) n)).
        { intros s0 n Hs0. apply (phrase_number x y b); auto. apply Cd. exact I. }
        assert (Hh : forall s, const_assignment s -> (holds ext B (FDet Gt k (r ++ [FAtom a])) s <->
          exists n, how_many (fun c => nbar_true ext b c /\ P (s x) c) n /\ (Z.of_nat n > k)%Z)).
        { intros s0 Hs0. rewrite holds_det. split; intros (n & Hn1 & Hn2); exists n; (split; [now apply (Hn s0)|now apply compare_gt]). }
        rewrite possible_one; auto.
        intros s' Hst Hs'. rewrite !Hh by assumption. now rewrite (Hst x Hx).
  Qed.

  (** *** predicates and sorts *)
  Definition lexical (p : string) : Prop := exists n, In n (lx_nouns lx ++ lx_adjectives lx ++ lx_verbs lx) /\ snd n = p.
  Variable sig : string -> list sort.
  Variable c : sort.
  Hypothesis noun_sort : forall n, In n (lx_nouns lx) -> sig (snd n) = [c].
  Hypothesis adj_sort : forall n, In n (lx_adjectives lx) -> sig (snd n) = [c].
  Hypothesis verb_sort : forall n, In n (lx_verbs lx) -> sig (snd n) = [c; c].
  Notation env := (fun _ : string => c).

  Lemma all_sorted_app q1 q2 : all_sorted sig env (q1 ++ q2) <-> all_sorted sig env q1 /\ all_sorted sig env q2.
  Proof. induction q1 as [|f q1 IH]; cbn; [tauto|]. rewrite IH. tauto. Qed.
  Lemma sorted_nested q : (fix all (q : list fol) : Prop := match q with [] => True | f :: q' => sorted sig env f /\ all q' end) q <-> all_sorted sig env q.
  Proof. induction q as [|f q IH]; cbn; [tauto|]. rewrite IH. tauto. Qed.

  Lemma fragment_sorted :
    (forall x b q, nbar_fol x b q -> nbar_in lx b -> all_sorted sig env q) /\
    (forall x r q, rcl_fol x r q -> rcl_in lx r -> all_sorted sig env q) /\
    (forall x v q, vp_fol x v q -> vp_in lx v -> all_sorted sig env q) /\
    (forall x y o body q, np_fol x y o body q -> np_in lx o -> all_sorted sig env [body] -> all_sorted sig env q).
  Proof.
    apply fragment_fol_ind; cbn [nbar_in rcl_in vp_in np_in]; auto.
    - intros x n Hn. cbn. rewrite noun_sort by assumption. repeat constructor.
    - intros x a b q H IH (Ha & Hb). cbn. split; [|auto]. rewrite adj_sort by assumption. repeat constructor.
    - intros x b r q1 q2 H1 IH1 H2 IH2 On (Hb & Hr). rewrite all_sorted_app. auto.
    - intros x r1 r2 q1 q2 H1 IH1 H2 IH2 On (Hb & Hr). rewrite all_sorted_app. auto.
    - intros x y t o q H IH N (Ht & Ho). apply IH; auto. cbn. rewrite verb_sort by assumption. repeat constructor.
    - intros x y t o q H IH N (Ht & Ho). apply IH; auto. cbn. rewrite verb_sort by assumption. repeat constructor.
    - intros x v q H IH Hv. cbn. split; [|exact I]. apply sorted_nested. auto.
    - intros x y b body r H IH Nx Hb Hbody. rewrite all_sorted_app. auto.
    - intros x y d b body r H IH Nx (_ & Hb) Hbody.
      assert (Hq : all_sorted sig env (r ++ [body])) by (rewrite all_sorted_app; auto).
      destruct d; cbn [det_fol]; auto; cbn [all_sorted sorted]; (split; [|exact I]); rewrite ?sorted_nested; auto.
  Qed.

  Lemma fragment_preds :
    (forall x b q, nbar_fol x b q -> nbar_in lx b -> forall p, In p (preds q) -> lexical p) /\
    (forall x r q, rcl_fol x r q -> rcl_in lx r -> forall p, In p (preds q) -> lexical p) /\
    (forall x v q, vp_fol x v q -> vp_in lx v -> forall p, In p (preds q) -> lexical p) /\
    (forall x y o body q, np_fol x y o body q -> np_in lx o -> (forall p, In p (fol_preds body) -> lexical p) -> forall p, In p (preds q) -> lexical p).
  Proof.
    assert (L1 : forall n, In n (lx_nouns lx) -> lexical (snd n)) by (intros n Hn; exists n; rewrite !in_app_iff; auto).
    assert (L2 : forall n, In n (lx_adjectives lx) -> lexical (snd n)) by (intros n Hn; exists n; rewrite !in_app_iff; auto).
    assert (L3 : forall n, In n (lx_verbs lx) -> lexical (snd n)) by (intros n Hn; exists n; rewrite !in_app_iff; auto).
    apply fragment_fol_ind; cbn [nbar_in rcl_in vp_in np_in]; auto.
    - intros x n Hn p [<-|[]]. cbn. auto.
    - intros x a b q H IH (Ha & Hb) p [<-|Hp]; cbn; auto.
    - intros x b r q1 q2 H1 IH1 H2 IH2 On (Hb & Hr) p. rewrite preds_app, in_app_iff. intros [|]; auto.
    - intros x r1 r2 q1 q2 H1 IH1 H2 IH2 On (Hb & Hr) p. rewrite preds_app, in_app_iff. intros [|]; auto.
    - intros x y t o q H IH N (Ht & Ho). apply IH; auto. intros p [<-|[]]. cbn. auto.
    - intros x y t o q H IH N (Ht & Ho). apply IH; auto. intros p [<-|[]]. cbn. auto.
    - intros x v q H IH Hv p. unfold preds. cbn. rewrite app_nil_r. now apply IH.
    - intros x y b body r H IH Nx Hb Hbody p. rewrite preds_app, in_app_iff. unfold preds at 2. cbn. rewrite app_nil_r. intros [|]; auto.
    - intros x y d b body r H IH Nx (_ & Hb) Hbody p. specialize (IH Hb). unfold preds in *.
      destruct d; cbn [det_fol flat_map fol_preds]; rewrite ?app_nil_r, ?flat_map_app, ?in_app_iff; cbn [flat_map];
        rewrite ?app_nil_r; intros [|]; auto.
  Qed.
End Fragment.
