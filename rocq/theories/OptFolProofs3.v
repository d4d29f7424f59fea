(** * First-order queries, with the independent parts isolated *)

From Coq Require Import ZArith String List Bool Lia Arith Permutation.
From Verif Require Import Py PyFacts DatalogSpec FolSpec FolProofs FolProofs2 OptFolSpec OptFolProofs OptFolProofs2.
Import ListNotations.
Local Open Scope nat_scope.
Local Open Scope string_scope.
Local Open Scope list_scope.

(** the groups have no variables in common, apart from those of [h] *)
Definition apart_from (h : fol) (g g' : list fol) : Prop :=
  forall x, In x (vars g) -> In x (vars g') -> In x (fol_vars h).

(** the formulas after the first one fall apart into groups; groups without a
    root variable are put in a scope, and isolated in their turn *)
Inductive iso : list string -> list fol -> list fol -> Prop :=
| iso_nil R : iso R [] []
| iso_cons R h rest groups parts :
    (forall f, In f rest -> exists g, In g groups /\ In f g) ->
    (forall g, In g groups -> exists p, g = filter p rest) ->
    ForallOrdPairs (apart_from h) groups ->
    isos R h groups parts -> iso R (h :: rest) (h :: concat parts)
with isos : list string -> fol -> list (list fol) -> list (list fol) -> Prop :=
| isos_nil R h : isos R h [] []
| isos_open R h g groups parts : isos R h groups parts -> isos R h (g :: groups) (g :: parts)
| isos_scoped R h g r groups parts :
    (forall x, In x R -> In x (vars g) -> In x (fol_vars h)) -> iso [] g r ->
    isos R h groups parts -> isos R h (g :: groups) ([FSome r] :: parts).

Scheme iso_ind' := Induction for iso Sort Prop
  with isos_ind' := Induction for isos Sort Prop.
Combined Scheme iso_mutind from iso_ind', isos_ind'.

Section Isolate.
  Variable ext : string -> list value -> Prop.
  Variable good : fatom -> Prop.
  Variable moved : string -> bool.
  Notation wf := (well_formed good []).
  Notation wfs := (wfs good []).
  Notation tidy := (tidy moved).
  Notation tidies := (tidies moved).
  Notation placed := (placed moved).
  Notation is_moved := (is_moved moved).

  Lemma tidies_before q before before' B : incl before' before -> tidies before B q -> tidies before' B q.
  Proof.
    intros Hi Ht. rewrite tidies_every in Ht. destruct Ht as [T1 T2]. rewrite tidies_every. split; auto.
    intros l f r E Hf x Hx. destruct (T2 l f r E Hf x Hx) as [P1 P2]. split; auto.
    intros N. destruct (P2 N) as [|[P3 P4]]; auto. right. split; auto. intros F. apply P3.
    apply in_app_or in F as [F|F]; apply in_or_app; auto.
  Qed.

  (** the variables of the first formula have a value, or are its own *)
  Lemma head_known B h rest x : wfs B (h :: rest) -> tidies [] B (h :: rest) ->
    In x (fol_vars h) -> In x (vars rest) -> In x (fol_binds h ++ B).
  Proof.
    intros [W _] (T & P & _) Hx Hr. apply in_or_app.
    destruct (in_dec string_dec x (fol_binds h)) as [Hb|Hb]; auto.
    destruct (has_body h) eqn:Hh.
    - destruct (proj2 (P Hh x Hx) Hb) as [|[_ F]]; auto. contradiction.
    - destruct h as [a|t u|l t u| | | | | |]; try discriminate; try contradiction.
      right. destruct W as (_ & _ & K1 & K2). cbn [fol_vars] in Hx. apply in_arg_vars in Hx as [E|[E|[]]]; subst; assumption.
  Qed.

  (** ** one group *)
  Section Group.
    Variables (B : list string) (rest : list fol) (p : fol -> bool).
    Let g := filter p rest.
    Hypothesis Hw : wfs B rest.
    Hypothesis Ht : tidies [] B rest.
    Hypothesis Hsep : forall f f' x, In f g -> In f' rest -> p f' = false ->
      In x (fol_vars f) -> In x (fol_vars f') -> In x B.

    Lemma group_alike l f r : rest = l ++ f :: r -> p f = true ->
      alike (fol_vars f) (ctx B l) (ctx B (filter p l)).
    Proof.
      intros E Pf x Hx. rewrite !in_ctx. split; intros [H|H]; auto.
      - apply in_binds in H as (f' & Hf' & Hb). destruct (p f') eqn:Pf'.
        + left. apply in_binds. exists f'. split; auto. now apply filter_In.
        + right. eapply (Hsep f f' x); auto.
          * apply filter_In. split; auto. rewrite E. apply in_or_app. simpl. auto.
          * rewrite E. apply in_or_app. auto.
          * now apply fol_binds_vars.
      - left. now apply in_binds_filter in H.
    Qed.
    Lemma group_wf : wfs B g.
    Proof.
      pose proof Hw as Hw'. rewrite wfs_every in Hw'. apply wfs_every. intros l' f r' E.
      apply filter_split in E as (l & r & E & <- & <- & Pf).
      eapply wf_near; [exact (Hw' _ _ _ E)|]. apply alike_near. now apply (group_alike l f r).
    Qed.
    Lemma group_tidy : tidies [] B g.
    Proof.
      pose proof Ht as Ht'. rewrite tidies_every in Ht'. destruct Ht' as [T1 T2]. rewrite tidies_every. split.
      - intros l' f r' E. apply filter_split in E as (l & r & E & <- & <- & Pf).
        eapply tidy_alike; [exact (T1 _ _ _ E)|]. now apply (group_alike l f r).
      - intros l' f r' E. apply filter_split in E as (l & r & E & <- & <- & Pf).
        intros Hf x Hx. destruct (T2 _ _ _ E Hf x Hx) as [P1 P2]. rewrite app_nil_r in *. split.
        + intros Hb F. apply (P1 Hb). apply in_vars in F as (f' & Hf' & Hx'). apply in_vars. exists f'. split; auto.
          apply filter_In in Hf' as [H1 H2]. apply filter_In in H1 as [H1 _]. now apply filter_In.
        + intros N. destruct (P2 N) as [H|[H1 H2]].
          * left. now apply (group_alike l f r).
          * right. split; intros F; apply in_vars_filter in F; auto.
    Qed.
    Lemma group_holds s : const_assignment s -> all_hold ext B rest s -> all_hold ext B g s.
    Proof.
      intros Hs Hh. rewrite all_hold_every in *. intros l' f r' E.
      apply filter_split in E as (l & r & E & <- & <- & Pf).
      apply (holds_insensitive ext good [] f (ctx B l)); auto.
      - pose proof Hw as Hw'. rewrite wfs_every in Hw'. exact (Hw' _ _ _ E).
      - apply alike_near. now apply (group_alike l f r).
      - exact (Hh _ _ _ E).
    Qed.
    Lemma group_holds_at s l f r : const_assignment s -> all_hold ext B g s -> rest = l ++ f :: r -> p f = true ->
      holds ext (ctx B l) f s.
    Proof.
      intros Hs Hh E Pf. rewrite all_hold_every in Hh.
      apply (holds_insensitive ext good [] f (ctx B l) (ctx B (filter p l))); auto.
      - pose proof Hw as Hw'. rewrite wfs_every in Hw'. exact (Hw' _ _ _ E).
      - apply alike_near. now apply (group_alike l f r).
      - apply (Hh _ _ (filter p r)). unfold g. rewrite E, filter_app. cbn [filter]. now rewrite Pf.
    Qed.
  End Group.

  (** ** all groups *)

  Record iso_ok (R B : list string) (q r : list fol) : Prop := {
    io_wf : wfs B r;
    io_vars : eqs (vars q) (vars r);
    io_binds : incl (binds r) (binds q);
    io_roots : forall x, In x R -> In x (binds q) -> In x (binds r) \/ In x B;
    io_there : forall s, const_assignment s -> all_hold ext B q s -> all_hold ext B r s;
    io_back : forall s, const_assignment s -> all_hold ext B r s ->
      exists s', const_assignment s' /\ same_on (B ++ binds r ++ R) s s' /\ all_hold ext B q s'
  }.
  Record isos_ok (R B C : list string) (groups parts : list (list fol)) : Prop := {
    is_wf : wfs C (concat parts);
    is_vars : eqs (vars (concat groups)) (vars (concat parts));
    is_binds : incl (binds (concat parts)) (binds (concat groups));
    is_roots : forall x, In x R -> In x (binds (concat groups)) -> In x (binds (concat parts)) \/ In x B;
    is_there : forall s, const_assignment s -> (forall g, In g groups -> all_hold ext B g s) -> all_hold ext C (concat parts) s;
    is_back : forall s, const_assignment s -> all_hold ext C (concat parts) s ->
      exists s', const_assignment s' /\ same_on (C ++ binds (concat parts) ++ R) s s' /\
        (forall x, ~ In x (vars (concat groups)) -> s x = s' x) /\ forall g, In g groups -> all_hold ext B g s'
  }.

  Lemma in_vars_concat x gs : In x (vars (concat gs)) <-> exists g, In g gs /\ In x (vars g).
  Proof.
    rewrite in_vars. split.
    - intros (f & Hf & Hx). apply in_concat in Hf as (g & Hg & Hf). exists g. split; auto. apply in_vars. eauto.
    - intros (g & Hg & Hx). apply in_vars in Hx as (f & Hf & Hx). exists f. split; auto. apply in_concat. eauto.
  Qed.

  Lemma isolation_ok :
    (forall R q r, iso R q r -> forall B, wfs B q -> tidies [] B q -> iso_ok R B q r) /\
    (forall R h groups parts, isos R h groups parts -> forall B C,
       (forall g, In g groups -> wfs B g /\ tidies [] B g) ->
       ForallOrdPairs (apart_from h) groups ->
       (forall x, In x (fol_vars h) -> In x (vars (concat groups)) -> In x B) ->
       incl B C -> (forall x, In x (vars (concat groups)) -> In x C -> In x B) ->
       isos_ok R B C groups parts).
  Proof.
    apply iso_mutind.
    - intros R B _ _. split; auto using eqs_refl, incl_refl; try exact I.
      intros s Hs _. exists s. split; auto. split; [apply same_on_refl|exact I].
    - intros R h rest groups parts Hall Hpart Hap His IH B Hw Ht.
      set (B1 := fol_binds h ++ B).
      assert (K : forall x, In x (fol_vars h) -> In x (vars rest) -> In x B1) by (intros x; now apply head_known).
      destruct Hw as [Wh Wr]. destruct Ht as (Th & Ph & Tr). fold B1 in Wr, Tr.
      apply (tidies_before _ _ []) in Tr; [|intros y []].
      assert (Hin : forall g f, In g groups -> In f g -> In f rest).
      { intros g f Hg Hf. destruct (Hpart g Hg) as (p & ->). now apply filter_In in Hf. }
      assert (Hvg : forall x, In x (vars (concat groups)) -> In x (vars rest)).
      { intros x Hx. apply in_vars_concat in Hx as (g & Hg & Hx). apply in_vars in Hx as (f & Hf & Hx). apply in_vars. eauto. }
      assert (Hsep : forall p, In (filter p rest) groups -> forall f f' x, In f (filter p rest) -> In f' rest -> p f' = false ->
        In x (fol_vars f) -> In x (fol_vars f') -> In x B1).
      { intros p Hp f f' x Hf Hf' Pf' Hx Hx'. destruct (Hall f' Hf') as (g' & Hg' & Hfg').
        apply K; [|apply in_vars; eauto].
        destruct (ForallOrdPairs_In Hap _ _ Hp Hg') as [E|[E|E]].
        - rewrite <- E in Hfg'. apply filter_In in Hfg'. destruct Hfg'. congruence.
        - apply E; apply in_vars; eauto.
        - apply E; apply in_vars; eauto. }
      destruct (IH B1 B1) as [I1 I2 I3 I4 I5 I6]; auto using incl_refl.
      { intros g Hg. destruct (Hpart g Hg) as (p & ->). specialize (Hsep p Hg).
        split; [now apply group_wf|now apply group_tidy]. }
      assert (Hlist : forall s, const_assignment s -> ((forall g, In g groups -> all_hold ext B1 g s) <-> all_hold ext B1 rest s)).
      { intros s Hs. split.
        - intros Hg. apply all_hold_every. intros l f r E.
          assert (Hf : In f rest) by (rewrite E; apply in_or_app; simpl; auto).
          destruct (Hall f Hf) as (g & Hgg & Hfg). destruct (Hpart g Hgg) as (p & ->). specialize (Hsep p Hgg).
          apply (group_holds_at B1 rest p Wr Hsep s l f r); auto. now apply filter_In in Hfg.
        - intros Hr g Hg. destruct (Hpart g Hg) as (p & ->). specialize (Hsep p Hg). now apply group_holds. }
      assert (Hgv : eqs (vars (concat groups)) (vars rest)).
      { intros x. split; auto. intros Hx. apply in_vars in Hx as (f & Hf & Hx). destruct (Hall f Hf) as (g & Hg & Hfg).
        apply in_vars_concat. exists g. split; auto. apply in_vars. eauto. }
      assert (Hgb : eqs (binds (concat groups)) (binds rest)).
      { intros x. rewrite !in_binds. split; intros (f & Hf & Hx); exists f; (split; [|exact Hx]).
        - apply in_concat in Hf as (g & Hg & Hf). eauto.
        - destruct (Hall f Hf) as (g & Hg & Hfg). apply in_concat. eauto. }
      split.
      + split; [exact Wh|]. exact I1.
      + apply (eqs_app _ _ _ _ (eqs_refl _)). intros x. rewrite <- (Hgv x). apply I2.
      + apply incl_app; [apply incl_appl, incl_refl|apply incl_appr]. intros x Hx. apply Hgb. now apply I3.
      + intros x HR Hx. change (binds (h :: rest)) with (fol_binds h ++ binds rest) in Hx.
        change (binds (h :: concat parts)) with (fol_binds h ++ binds (concat parts)). rewrite in_app_iff.
        apply in_app_or in Hx as [Hx|Hx]; auto. apply Hgb in Hx. destruct (I4 x HR Hx) as [|H]; auto.
        apply in_app_or in H as [|]; auto.
      + intros s Hs [H1 H2]. split; [exact H1|]. apply I5; auto. now apply Hlist.
      + intros s Hs [H1 H2]. destruct (I6 s Hs H2) as (s' & S1 & S2 & S3 & S4). exists s'. split; [exact S1|].
        split; [|split].
        * intros x Hx. apply S2. change (binds (h :: concat parts)) with (fol_binds h ++ binds (concat parts)) in Hx.
          unfold B1. rewrite !in_app_iff in *. tauto.
        * eapply (holds_stable ext good []); [exact Wh|exact Hs|exact S1| |exact H1].
          intros x Hx Hb. apply S2. unfold B1. rewrite !in_app_iff. tauto.
        * exact (proj1 (Hlist s' S1) S4).
    - intros R h B C _ _ _ Hi _. split; try exact I; auto using eqs_refl, incl_refl.
      + intros s Hs _. exact I.
      + intros s Hs _. exists s. split; [exact Hs|]. split; [apply same_on_refl|]. split; [reflexivity|]. intros g [].
    - intros R h g groups parts His IH B C Hg Hap Hh Hi HC.
      inversion Hap as [|? ? Hap1 Hap2]; subst. rewrite Forall_forall in Hap1.
      assert (Hsh : forall x, In x (vars g) -> In x (vars (concat groups)) -> In x B).
      { intros x Hx Hx'. apply Hh; [|simpl; rewrite vars_app; apply in_or_app; auto].
        apply in_vars_concat in Hx' as (g' & Hg' & Hx'). now apply (Hap1 g'). }
      cbn [concat] in *. rewrite vars_app in *.
      destruct (Hg g (or_introl eq_refl)) as [Wg Tg].
      destruct (IH B (ctx C g)) as [I1 I2 I3 I4 I5 I6]; auto.
      { intros; apply Hg; now right. }
      { intros x Hx Hx'. apply Hh; auto. apply in_or_app; auto. }
      { intros x Hx. apply in_ctx. auto. }
      { intros x Hx Hc. apply in_ctx in Hc as [Hc|Hc]; [|apply HC; auto; apply in_or_app; auto].
        apply Hsh; auto. now apply binds_vars. }
      assert (Ag : alike (vars g) B C).
      { intros x Hx. split; auto. apply HC. apply in_or_app. auto. }
      split; cbn [concat].
      + apply wfs_app. split; auto. eapply wfs_near; [exact Wg|]. now apply alike_near.
      + rewrite !vars_app. apply eqs_app; auto using eqs_refl.
      + rewrite !binds_app. apply incl_app; [apply incl_appl, incl_refl|now apply incl_appr].
      + intros x HR Hx. rewrite binds_app in *. rewrite in_app_iff in *. destruct Hx as [Hx|Hx]; auto.
        destruct (I4 x HR Hx); auto.
      + intros s Hs Hh'. apply all_hold_app. split; [|apply I5; auto; intros; apply Hh'; now right].
        apply (all_hold_near ext good [] g B C s); auto using alike_near. apply Hh'. now left.
      + intros s Hs Hh'. apply all_hold_app in Hh' as [H1 H2]. destruct (I6 s Hs H2) as (s' & S1 & S2 & S3 & S4).
        exists s'. split; [exact S1|]. split; [|split].
        * intros x Hx. apply S2. rewrite binds_app in Hx. rewrite !in_app_iff in *. rewrite in_ctx. tauto.
        * intros x Hx. apply S3. rewrite vars_app, in_app_iff in Hx. tauto.
        * intros g' [<-|Hg']; auto.
          apply (all_hold_near ext good [] g B C s) in H1; auto using alike_near.
          eapply (all_hold_stable ext good []); [exact Wg|exact Hs|exact S1| |exact H1].
          intros x Hx _. destruct (in_dec string_dec x (vars (concat groups))) as [Hx'|Hx']; auto.
          apply S2. apply in_or_app. left. apply in_ctx. auto.
    - intros R h g r groups parts HR Hiso IHr His IH B C Hg Hap Hh Hi HC.
      inversion Hap as [|? ? Hap1 Hap2]; subst. rewrite Forall_forall in Hap1.
      assert (Hsh : forall x, In x (vars g) -> In x (vars (concat groups)) -> In x B).
      { intros x Hx Hx'. apply Hh; [|simpl; rewrite vars_app; apply in_or_app; auto].
        apply in_vars_concat in Hx' as (g' & Hg' & Hx'). now apply (Hap1 g'). }
      cbn [concat] in *. rewrite vars_app in *.
      destruct (Hg g (or_introl eq_refl)) as [Wg Tg].
      destruct (IHr B Wg Tg) as [J1 J2 J3 J4 J5 J6].
      destruct (IH B C) as [I1 I2 I3 I4 I5 I6]; auto.
      { intros; apply Hg; now right. }
      { intros x Hx Hx'. apply Hh; auto. apply in_or_app; auto. }
      { intros x Hx Hc. apply HC; auto. apply in_or_app; auto. }
      assert (Ag : alike (vars r) B C).
      { intros x Hx. split; auto. apply HC. apply in_or_app. left. now apply J2. }
      assert (Wr : wf B (FSome r)) by (split; [apply local_nil|exact J1]).
      assert (Hs1 : forall s, const_assignment s -> (holds ext B (FSome r) s <-> holds ext C (FSome r) s)).
      { intros s Hs. apply (holds_insensitive ext good [] (FSome r) B C s); auto. now apply alike_near. }
      split; cbn [concat].
      + split; [|exact I1]. eapply wf_near; [exact Wr|]. now apply alike_near.
      + rewrite vars_app. change (vars ([FSome r] ++ concat parts)) with (vars r ++ vars (concat parts)). now apply eqs_app.
      + rewrite !binds_app. intros x Hx. apply in_or_app. right. now apply I3.
      + intros x Hx Hx'. rewrite binds_app in *. rewrite in_app_iff in *. cbn [binds flat_map fol_binds app].
        destruct Hx' as [Hx'|Hx']; [|destruct (I4 x Hx Hx'); auto].
        right. apply binds_vars in Hx'. apply Hh; [auto|]. apply in_or_app. auto.
      + intros s Hs Hh'. split; [|apply I5; auto; intros; apply Hh'; now right].
        apply Hs1; auto. rewrite holds_some. exists s. split; auto. split; [apply same_on_refl|]. apply J5; auto. apply Hh'. now left.
      + intros s Hs [H1 H2]. cbn [fol_binds app] in H2. destruct (I6 s Hs H2) as (s1 & S1 & S2 & S3 & S4).
        apply Hs1 in H1; auto. rewrite holds_some in H1. destruct H1 as (t & T1 & T2 & T3).
        destruct (J6 t T1 T3) as (t' & U1 & U2 & U3).
        set (L := filter (fun x => negb (if in_dec string_dec x B then true else false)) (vars g)).
        assert (HL : forall x, In x L <-> In x (vars g) /\ ~ In x B).
        { intros x. unfold L. rewrite filter_In. destruct (in_dec string_dec x B); simpl; intuition discriminate. }
        assert (Sc : forall x, In x B -> over L t' s1 x = t' x).
        { intros x Hx. rewrite over_out by (rewrite HL; tauto).
          rewrite <- (U2 x), <- (T2 x) by (auto; apply in_or_app; auto). symmetry. apply S2. apply in_or_app. auto. }
        exists (over L t' s1). split; [now apply over_const|]. split; [|split].
        * intros x Hx. rewrite over_out; [apply S2; exact Hx|]. rewrite HL. intros [F1 F2]. apply F2.
          cbn [binds flat_map fol_binds app] in Hx. apply in_app_or in Hx as [Hx|Hx].
          -- apply HC; auto. apply in_or_app. auto.
          -- apply in_app_or in Hx as [Hx|Hx].
             ++ apply Hsh; auto. apply binds_vars. now apply I3.
             ++ apply Hh; auto. apply in_or_app. auto.
        * intros x Hx. rewrite vars_app, in_app_iff in Hx. rewrite over_out by (rewrite HL; tauto). apply S3. tauto.
        * intros g' [<-|Hg'].
          -- eapply (all_hold_stable ext good []); [exact Wg|exact U1|now apply over_const| |exact U3].
             intros x Hx _. destruct (in_dec string_dec x B) as [Hb|Hb]; [symmetry; auto|].
             apply over_same. rewrite HL. auto.
          -- eapply (all_hold_stable ext good []); [apply Hg; right; exact Hg'|exact S1|now apply over_const| |apply S4; exact Hg'].
             intros x Hx _. rewrite over_out; auto. rewrite HL. intros [F1 F2]. apply F2. apply Hsh; auto.
             apply in_vars_concat. eauto.
  Qed.

  (** ** predicates and sorts *)
  Lemma isolation_preds :
    (forall R q r, iso R q r -> incl (preds r) (preds q)) /\
    (forall R h groups parts, isos R h groups parts -> incl (preds (concat parts)) (preds (concat groups))).
  Proof.
    apply iso_mutind.
    - intros R. apply incl_refl.
    - intros R h rest groups parts Hall Hpart Hap His IH. unfold preds in *. cbn [flat_map].
      apply incl_app; [apply incl_appl, incl_refl|apply incl_appr]. eapply incl_tran; [exact IH|].
      intros x Hx. apply in_flat_map in Hx as (f & Hf & Hx). apply in_concat in Hf as (g & Hg & Hf).
      destruct (Hpart g Hg) as (p & ->). apply filter_In in Hf as [Hf _]. apply in_flat_map. eauto.
    - intros. apply incl_refl.
    - intros R h g groups parts _ IH. unfold preds in *. cbn [concat]. rewrite !flat_map_app.
      apply incl_app; [apply incl_appl, incl_refl|now apply incl_appr].
    - intros R h g r groups parts _ _ IH _ IH'. unfold preds in *. cbn [concat]. rewrite !flat_map_app.
      apply incl_app; [apply incl_appl|now apply incl_appr]. cbn [flat_map fol_preds]. rewrite app_nil_r. exact IH.
  Qed.
  Lemma isolation_sorted sig env :
    (forall R q r, iso R q r -> all_sorted sig env q -> all_sorted sig env r) /\
    (forall R h groups parts, isos R h groups parts -> all_sorted sig env (concat groups) -> all_sorted sig env (concat parts)).
  Proof.
    assert (Happ : forall l m, all_sorted sig env (l ++ m) <-> all_sorted sig env l /\ all_sorted sig env m).
    { intros l m. rewrite !all_sorted_In. split.
      - intros A. split; intros f Hf; apply A; apply in_or_app; auto.
      - intros [A1 A2] f Hf. apply in_app_or in Hf as [|]; auto. }
    apply iso_mutind; auto.
    - intros R h rest groups parts Hall Hpart Hap His IH [A1 A2]. split; auto. apply IH.
      rewrite all_sorted_In in *. intros f Hf. apply in_concat in Hf as (g & Hg & Hf).
      destruct (Hpart g Hg) as (p & ->). apply filter_In in Hf as [Hf _]. auto.
    - intros R h g groups parts _ IH A. cbn [concat] in *. rewrite Happ in *. intuition.
    - intros R h g r groups parts _ _ IH _ IH' A. cbn [concat] in *. rewrite Happ in *. split; [|intuition].
      split; [|exact I]. apply IH. apply A.
  Qed.
End Isolate.
