(** * Sentences: when their queries are true *)

From Coq Require Import ZArith String Ascii List Bool Lia Arith.
From Verif Require Import Py PyFacts DatalogSpec DatalogProofs FolSpec FolProofs FolProofs2 FragmentSpec FragmentModel FragmentProofs
  QuestionSystem QuestionProofs QuestionProofs2 FragmentProofs2 TalkSpec TalkModel TalkProofs.
Import ListNotations.
Local Open Scope nat_scope.
Local Open Scope string_scope.
Local Open Scope list_scope.

Section Closed.
  Variable GA : fatom -> Prop.
  Variable lx : lexicon.
  Hypothesis noun_ok : forall n x, In n (lx_nouns lx) -> GA (mkAtom (snd n) [VVar x]).
  Hypothesis adj_ok : forall n x, In n (lx_adjectives lx) -> GA (mkAtom (snd n) [VVar x]).
  Hypothesis verb_ok : forall n x y, In n (lx_verbs lx) -> GA (mkAtom (snd n) [VVar x; VVar y]).
  Variable ext : string -> list value -> Prop.

  Notation says := (says ext).
  Let says_range := says_range GA lx noun_ok adj_ok verb_ok ext.

  (** *** what can be met, and how often *)
  Section Range.
    Variables (y : string) (b : nbar) (q : list fol) (A : value -> Prop) (s : assignment).
    Hypothesis Hq : nbar_fol y b q.
    Hypothesis Hb : nbar_in lx b.
    Hypothesis HA : says y q A.
    Hypothesis Hs : const_assignment s.

    Lemma ranges c : in_range ext [] y q s c <-> individual c /\ A c.
    Proof. apply (says_range y b); auto. Qed.
    Lemma closed_some : possible ext [] q s <-> exists c, individual c /\ A c.
    Proof.
      split.
      - intros (s' & Hs' & Hst & Hh). exists (s' y). apply ranges. exists s'. auto.
      - intros (c & Hc). apply ranges in Hc as (s' & Hs' & Hst & _ & Hh). exists s'. auto.
    Qed.
    Lemma closed_number n : nbar_single b -> (number ext [] q s n <-> how_many A n).
    Proof.
      intros Hsg. destruct (nbar_var _ _ _ Hq) as (_ & _ & l & El).
      pose proof (proj1 (single_binds) _ _ _ Hq Hsg) as Bx.
      set (row := fun c : value => map (fun _ : string => c) (binds q)).
      assert (Hrow : forall s', map s' (binds q) = row (s' y)).
      { intros s'. apply map_ext_in. intros z Hz. now rewrite (Bx z Hz). }
      assert (Hhd : forall c, hd VNone (row c) = c) by (intros c; unfold row; now rewrite El).
      split.
      - intros (rows & ND & Hl & Hin). exists (map (hd VNone) rows). split; [|split].
        + assert (I : forall r1 r2, In r1 rows -> In r2 rows -> hd VNone r1 = hd VNone r2 -> r1 = r2).
          { intros r1 r2 H1 H2 E. apply Hin in H1 as (s1 & _ & _ & _ & ->), H2 as (s2 & _ & _ & _ & ->).
            rewrite !Hrow in *. rewrite !Hhd in E. now rewrite E. }
          clear -ND I. induction ND as [|r0 rows NI ND IH]; [constructor|]. cbn. constructor.
          * intros Hm. apply in_map_iff in Hm as (r1 & E & H1). apply NI. rewrite (I r0 r1); auto; [now left|now right].
          * apply IH. intros r1 r2 H1 H2. apply I; now right.
        + now rewrite map_length.
        + intros c. rewrite in_map_iff. rewrite <- ranges. split.
          * intros (r0 & <- & H0). apply Hin in H0 as (s' & Hs' & Hst & Hh & ->). exists s'. rewrite Hrow, Hhd. auto.
          * intros (s' & Hs' & Hst & <- & Hh). exists (row (s' y)). split; auto. apply Hin. exists s'. rewrite Hrow. auto.
      - intros (cs & ND & Hl & Hin). exists (map row cs). split; [|split].
        + clear Hl Hin. induction ND as [|c cs NI ND IH]; [constructor|]. cbn. constructor; auto.
          intros Hm. apply in_map_iff in Hm as (c1 & E & H1). apply NI. rewrite <- (Hhd c), <- E, Hhd. exact H1.
        + now rewrite map_length.
        + intros r0. rewrite in_map_iff. split.
          * intros (c & <- & Hc). apply Hin, ranges in Hc as (s' & Hs' & Hst & <- & Hh). exists s'. rewrite Hrow. auto.
          * intros (s' & Hs' & Hst & Hh & ->). exists (s' y). rewrite Hrow. split; auto. apply Hin, ranges. exists s'. auto.
    Qed.
  End Range.

  (** *** a determiner, and what is said of the phrase *)
  Section Said.
    Variables (y : string) (b b' : nbar) (r q : list fol) (A P : value -> Prop) (s : assignment).
    Hypothesis Hr : nbar_fol y b r.
    Hypothesis Hb : nbar_in lx b.
    Hypothesis HA : says y r A.
    Hypothesis HP : says y q P.
    Hypothesis On : only y r q.
    (** the phrase together with what is said of it *)
    Hypothesis Hrq : nbar_fol y b' (r ++ q).
    Hypothesis Hb' : nbar_in lx b'.
    Hypothesis HAP : says y (r ++ q) (fun c => A c /\ P c).
    Hypothesis Hs : const_assignment s.

    Lemma possible_holds f : fol_binds f = [] -> (forall s', const_assignment s' -> (holds ext [] f s' <-> holds ext [] f s)) ->
      (possible ext [] [f] s <-> holds ext [] f s).
    Proof. intros _ Hf. apply possible_one; auto. Qed.

    Lemma possible_closed q0 s' : const_assignment s' -> (possible ext [] q0 s' <-> possible ext [] q0 s).
    Proof. intros Hs'. split; intros (s2 & H1 & _ & H2); exists s2; (split; [exact H1|split; [intros z []|exact H2]]). Qed.
    Lemma number_closed q0 s' n : const_assignment s' -> (number ext [] q0 s' n <-> number ext [] q0 s n).
    Proof.
      intros Hs'. split; intros (rows & ND & Hl & Hin); exists rows; (split; [exact ND|split; [exact Hl|]]); intros row; rewrite Hin;
        (split; intros (s2 & H1 & _ & H2); exists s2; (split; [exact H1|split; [intros z []|exact H2]])).
    Qed.

    Lemma closed_every : possible ext [] [FAll y r q] s <->
      (exists c, individual c /\ A c) /\ forall c, individual c -> A c -> P c.
    Proof.
      assert (O : outside y [y] q) by (intros z _ [<-|[]]; reflexivity).
      assert (G : forall s' c, const_assignment s' ->
        ((exists s2, const_assignment s2 /\ same_on [] s' s2 /\ s2 y = c /\ all_hold ext [y] q s2) <-> individual c /\ P c)).
      { intros s' c Hs'. split.
        - intros (s2 & Hs2 & _ & <- & Hh). split; [apply Hs2|]. apply (HP [y] s2); auto; [now left|].
          exists s2. split; auto. split; [apply same_on_refl|auto].
        - intros (Hc & Hp). pose proof (update_const s' y c Hs' Hc) as Hu.
          destruct (HP [y] (update s' y c)) as (_ & D); auto; [now left|]. rewrite update_same in D.
          destruct (D Hp) as (s2 & Hs2 & Hst & Hh). exists s2. split; auto. split; [intros z []|]. split; auto.
          rewrite <- (Hst y (or_introl eq_refl)). apply update_same. }
      split.
      - intros (s' & Hs' & Hst & Hh & _). rewrite holds_all in Hh. destruct Hh as (H1 & H2).
        apply (ranges y b r A s') in H1; auto. split; [eauto|]. intros c Hc HAc.
        apply (G s' c); auto. apply H2. apply (ranges y b r A s'); auto.
      - intros ((c & Hc & HAc) & Hall). exists (update s y c). assert (Hu : const_assignment (update s y c)) by now apply update_const.
        split; auto. split; [intros z []|]. cbn [all_hold]. split; [|exact I]. rewrite holds_all. split.
        + apply (ranges y b r A); auto. rewrite update_same. auto.
        + intros v Hv. apply (ranges y b r A) in Hv as (Hv & HAv); auto. apply G; auto.
    Qed.

    Lemma closed_det d : (counts d -> nbar_single b') -> (possible ext [] (det_fol d y r q) s <-> quant d A P).
    Proof.
      intros Hc. destruct d as [w| | |w k|w k]; cbn [det_fol quant].
      - rewrite (closed_some y b' (r ++ q) _ s Hrq Hb' HAP Hs). split; intros (c & H); exists c; tauto.
      - rewrite possible_one; auto.
        + rewrite holds_not. rewrite (closed_some y b' (r ++ q) _ s Hrq Hb' HAP Hs). split; intros H (c & Hcc); apply H; exists c; tauto.
        + intros s' _ Hs'. rewrite !holds_not. now rewrite (possible_closed _ s').
      - apply closed_every.
      - rewrite possible_one; auto.
        + rewrite holds_det. split; intros (n & Hn & E); exists n; rewrite Z.compare_eq_iff in *;
            (split; [|exact E]); apply (closed_number y b' (r ++ q) _ s Hrq Hb' HAP Hs n (Hc I)); exact Hn.
        + intros s' _ Hs'. rewrite !holds_det. split; intros (n & Hn & E); exists n; (split; [|exact E]); now apply (number_closed _ s').
      - rewrite possible_one; auto.
        + rewrite holds_det. split; intros (n & Hn & E); exists n; rewrite compare_gt in *;
            (split; [|exact E]); apply (closed_number y b' (r ++ q) _ s Hrq Hb' HAP Hs n (Hc I)); exact Hn.
        + intros s' _ Hs'. rewrite !holds_det. split; intros (n & Hn & E); exists n; (split; [|exact E]); now apply (number_closed _ s').
    Qed.
  End Said.

  Let fragment_true := fragment_true GA lx noun_ok adj_ok verb_ok ext.

  Lemma says_iff x q P P' : (forall c, P c <-> P' c) -> says x q P -> says x q P'.
  Proof. intros H S B s Hx O Hs. rewrite (S B s Hx O Hs). apply H. Qed.

  Theorem does_true o v x r q s : nbar_fol x (np_nbar o) r -> vp_fol x v q -> only x r q -> np_in lx o -> vp_in lx v ->
    sentence_counts (SDoes o v) -> const_assignment s ->
    (possible ext [] (np_query o x r q) s <-> np_true ext o (vp_true ext v)).
  Proof.
    intros Hr Hq On Ho Hv (Co & Cv & Cs) Hs. pose proof (np_in_nbar _ _ Ho) as Hb.
    assert (Cb : nbar_counts (np_nbar o)) by (destruct o; cbn in *; tauto).
    assert (N : nbar_fol x (Rel (np_nbar o) (That v)) (r ++ q)) by (constructor; auto; now constructor).
    assert (I : nbar_in lx (Rel (np_nbar o) (That v))) by (split; auto).
    assert (S1 : says x r (nbar_true ext (np_nbar o))) by (apply (proj1 fragment_true _ _ _ Hr Hb); auto).
    assert (S2 : says x q (vp_true ext v)) by (apply (proj1 (proj2 (proj2 fragment_true)) _ _ _ Hq Hv Cv)).
    assert (S3 : says x (r ++ q) (fun c => nbar_true ext (np_nbar o) c /\ vp_true ext v c)).
    { apply (proj1 fragment_true _ _ _ N I). split; auto. }
    destruct o as [b|d b]; cbn [np_nbar np_query np_true subject_counts] in *.
    - rewrite (closed_some x _ _ _ s N I S3 Hs). split; intros (c & H); exists c; tauto.
    - apply (closed_det x b (Rel b (That v)) r q); auto.
  Qed.
  Theorem is_there_true o x r s : nbar_fol x (np_nbar o) r -> np_in lx o -> sentence_counts (SIsThere o) -> const_assignment s ->
    (possible ext [] (np_query o x r []) s <-> np_true ext o (fun _ => True)).
  Proof.
    intros Hr Ho Co Hs. pose proof (np_in_nbar _ _ Ho) as Hb. cbn [sentence_counts] in Co.
    assert (Cb : nbar_counts (np_nbar o)) by (destruct o; cbn in *; tauto).
    assert (S1 : says x r (nbar_true ext (np_nbar o))) by (apply (proj1 fragment_true _ _ _ Hr Hb); auto).
    assert (S2 : says x [] (fun _ => True)).
    { intros B s0 _ _ Hs0. split; auto. intros _. exists s0. split; auto. split; [apply same_on_refl|exact I]. }
    assert (S3 : says x (r ++ []) (fun c => nbar_true ext (np_nbar o) c /\ True)).
    { rewrite app_nil_r. revert S1. apply says_iff. tauto. }
    assert (N : nbar_fol x (np_nbar o) (r ++ [])) by now rewrite app_nil_r.
    assert (On : only x r []) by (intros z _ []).
    destruct o as [b|d b]; cbn [np_nbar np_query np_true subject_counts np_counts] in *.
    - rewrite (closed_some x _ _ _ s N Hb S3 Hs). split; intros (c & H); exists c; tauto.
    - apply (closed_det x b b r []); auto. apply Co.
  Qed.
  Theorem how_many_true b v x q1 q2 s n : nbar_fol x b q1 -> vp_fol x v q2 -> only x q1 q2 -> nbar_in lx b -> vp_in lx v ->
    sentence_counts (SHowMany b v) -> const_assignment s ->
    (number ext [] (q1 ++ q2) s n <-> how_many (fun c => nbar_true ext b c /\ vp_true ext v c) n).
  Proof.
    intros Hq1 Hq2 On Hb Hv (Cb & Cv & Sb & Sv) Hs.
    assert (N : nbar_fol x (Rel b (That v)) (q1 ++ q2)) by (constructor; auto; now constructor).
    assert (I : nbar_in lx (Rel b (That v))) by (split; auto).
    assert (S3 : says x (q1 ++ q2) (nbar_true ext (Rel b (That v)))).
    { apply (proj1 fragment_true _ _ _ N I). split; auto. }
    apply (closed_number x _ _ _ s N I S3 Hs). split; auto.
  Qed.

  (** *** well-formed *)
  Let fragment_wf := fragment_wf GA lx noun_ok adj_ok verb_ok.

  Theorem subject_wf o x r q : nbar_fol x (np_nbar o) r -> np_in lx o -> only x r q ->
    (forall B, outside x B q -> wfs GA [] B q) -> wfs GA [] [] (np_query o x r q).
  Proof.
    intros Hr Ho On Wq. pose proof (np_in_nbar _ _ Ho) as Hb.
    assert (Wr : wfs GA [] [] r) by (apply (proj1 fragment_wf _ _ _ Hr Hb); intros z _ []).
    assert (W : wfs GA [] [] (r ++ q)).
    { rewrite wfs_app. split; auto. apply Wq. apply outside_r; auto. intros z _ []. }
    destruct (nbar_var _ _ _ Hr) as (Yv & Yb & _).
    destruct o as [b|d b]; cbn [np_query]; auto. destruct d; cbn [det_fol]; [exact W| | | |].
    - split; [|exact I]. rewrite wf_not. split; [apply local_nil|auto].
    - split; [|exact I]. rewrite wf_all. split; [intros []|]. split; [intros []|]. split; [auto|].
      split; [apply local_nil|]. split; [auto|]. split; [apply local_nil|]. apply Wq. intros z _ [<-|[]]. reflexivity.
    - split; [|exact I]. rewrite wf_det. split; [apply local_nil|auto].
    - split; [|exact I]. rewrite wf_det. split; [apply local_nil|auto].
  Qed.
End Closed.

Lemma np_query_preds o x r q p : In p (preds (np_query o x r q)) -> In p (preds r) \/ In p (preds q).
Proof.
  destruct o as [b|d b]; cbn [np_query]; [rewrite preds_app, in_app_iff; tauto|].
  destruct d; cbn [det_fol]; unfold preds; cbn [flat_map fol_preds]; rewrite ?app_nil_r, ?flat_map_app, ?in_app_iff; tauto.
Qed.

(** ** sorts *)
Section Sorts.
  Variable sig : string -> list sort.

  Lemma nested_sorted env q :
    (fix all (q : list fol) : Prop := match q with [] => True | f :: q' => sorted sig env f /\ all q' end) q <-> all_sorted sig env q.
  Proof. induction q as [|f q IH]; cbn; [tauto|]. rewrite IH. tauto. Qed.

  Lemma arg_sorted_env env env' c v : (forall z, In z (arg_vars [v]) -> env z = env' z) -> arg_sorted env c v -> arg_sorted env' c v.
  Proof. intros H. destruct v; cbn in *; auto. intros <-. symmetry. apply H. auto. Qed.
  Definition moves (f : fol) : Prop := forall env env', (forall z, In z (fol_vars f) -> env z = env' z) -> sorted sig env f -> sorted sig env' f.
  Lemma all_moves q : Forall moves q -> forall env env', (forall z, In z (vars q) -> env z = env' z) -> all_sorted sig env q -> all_sorted sig env' q.
  Proof.
    induction 1 as [|f q Hf _ IH]; intros env env' H; [auto|]. cbn. intros (H1 & H2). split.
    - apply (Hf env); auto. intros z Hz. apply H. unfold vars. cbn. apply in_or_app. auto.
    - apply (IH env); auto. intros z Hz. apply H. unfold vars. cbn. apply in_or_app. auto.
  Qed.
  Lemma sorted_moves f : moves f.
  Proof.
    induction f as [a|t u|l t u|n q IH|q IH|alts IH|x range body IH1 IH2|x q IH|c k q IH] using fol_ind'; intros env env' H; cbn [sorted]; rewrite ?nested_sorted.
    - cbn [fol_vars] in H. intros F. revert H. induction F as [|c v cs vs Hv F IHF]; intros H; constructor.
      + apply (arg_sorted_env env); auto. intros z Hz. apply H. cbn in *. apply in_or_app. rewrite app_nil_r in Hz. auto.
      + apply IHF. intros z Hz. apply H. cbn. apply in_or_app. auto.
    - intros (c & H1 & H2). exists c. cbn in H. split; (eapply arg_sorted_env; [|eassumption]); intros z Hz; apply H; cbn in *; rewrite ?app_nil_r, ?in_app_iff in *; auto.
    - intros (c & H1 & H2). exists c. cbn in H. split; (eapply arg_sorted_env; [|eassumption]); intros z Hz; apply H; cbn in *; rewrite ?app_nil_r, ?in_app_iff in *; auto.
    - apply all_moves; auto.
    - apply all_moves; auto.
    - cbn [fol_vars] in H. induction IH as [|q alts Hq _ IHa]; [auto|]. rewrite !nested_sorted. intros (H1 & H2). split.
      + apply (all_moves q Hq env); auto. intros z Hz. apply H. cbn. apply in_or_app. auto.
      + apply IHa; auto. intros z Hz. apply H. cbn. apply in_or_app. auto.
    - cbn [fol_vars] in H. intros (H1 & H2). split; (eapply all_moves; [eassumption| |eassumption]); intros z Hz; apply H; right; apply in_or_app; auto.
    - cbn [fol_vars] in H. intros (H1 & H2). split; [rewrite <- H1; symmetry; apply H; now left|].
      eapply all_moves; [eassumption| |eassumption]. intros z Hz. apply H. now right.
    - apply all_moves; auto.
  Qed.
  Lemma all_sorted_env env env' q : (forall z, In z (vars q) -> env z = env' z) -> all_sorted sig env q -> all_sorted sig env' q.
  Proof. apply all_moves. apply Forall_forall. intros f _. apply sorted_moves. Qed.

  Lemma sorted_app env q1 q2 : all_sorted sig env (q1 ++ q2) <-> all_sorted sig env q1 /\ all_sorted sig env q2.
  Proof. induction q1 as [|f q1 IH]; cbn; [tauto|]. rewrite IH. tauto. Qed.
  Lemma np_query_sorted env o x r q : all_sorted sig env r -> all_sorted sig env q -> all_sorted sig env (np_query o x r q).
  Proof.
    intros Hr Hq. assert (H : all_sorted sig env (r ++ q)) by (rewrite sorted_app; auto).
    destruct o as [b|d b]; cbn [np_query]; auto. destruct d; cbn [det_fol]; auto; cbn [all_sorted sorted]; (split; [|exact I]); rewrite ?nested_sorted; auto.
  Qed.
  Lemma count_sorted s x q : ~ In x (vars q) -> all_sorted sig (fun _ => s) q ->
    exists env, all_sorted sig env [FCount x q].
  Proof.
    intros Nx H. exists (fun z => if String.eqb z x then FolSpec.Number else s). cbn. rewrite nested_sorted, String.eqb_refl. split; [|exact I]. split; auto.
    revert H. apply all_sorted_env. intros z Hz. destruct (String.eqb_spec z x) as [->|]; auto. contradiction.
  Qed.
End Sorts.
