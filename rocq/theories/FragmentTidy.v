(** * The fragment of English: its questions can be reordered *)

From Coq Require Import ZArith String Ascii List Bool Lia Arith.
From Verif Require Import Py PyFacts DatalogSpec DatalogProofs FolSpec FolProofs FolProofs2 OptFolSpec OptFolProofs FragmentSpec FragmentProofs.
Import ListNotations.
Local Open Scope string_scope.
Local Open Scope list_scope.

Section Tidy.
  Variable moved : string -> bool.
  Notation tidies := (tidies moved).
  Notation tidy := (tidy moved).
  Notation placed := (placed moved).

  Lemma tidies_positions q : forall before B, tidies before B q <->
    every tidy B q /\ forall l f r, q = l ++ f :: r -> placed (vars l ++ before) (ctx B l) f r.
  Proof. intros. apply tidies_every. Qed.

  Lemma placed_after before B f r r' : placed before B f r ->
    (has_body f = true -> forall z, In z (fol_vars f) -> In z (vars r') -> In z B /\ ~ In z (fol_binds f)) ->
    placed before B f (r ++ r').
  Proof.
    intros H H' Hb x Hx. destruct (H Hb x Hx) as (H1 & H2). split.
    - intros Hi. rewrite filter_app, OptFolProofs.vars_app, in_app_iff. intros [F|F]; [now apply H1|].
      apply (H' Hb x Hx); auto. apply in_vars in F as (g & Hg & Hv). apply filter_In in Hg as (Hg & _). apply in_vars. eauto.
    - intros Hi. destruct (H2 Hi) as [H3|(H3 & H4)]; auto.
      destruct (in_dec string_dec x (vars r')) as [F|F]; [left; now apply (H' Hb x Hx)|].
      right. split; auto. rewrite OptFolProofs.vars_app, in_app_iff. tauto.
  Qed.

  Lemma tidies_app before B q1 q2 : tidies before B q1 -> tidies (vars q1 ++ before) (ctx B q1) q2 ->
    (forall l f r, q1 = l ++ f :: r -> has_body f = true -> forall z, In z (fol_vars f) -> In z (vars q2) ->
       In z (ctx B l) /\ ~ In z (fol_binds f)) ->
    tidies before B (q1 ++ q2).
  Proof.
    revert before B. induction q1 as [|f q1 IH]; intros before B; [cbn; auto|].
    cbn [app OptFolSpec.tidies]. intros (T1 & P1 & R1) T2 Sh. split; auto. split.
    - apply placed_after; auto. intros Hb z Hz Hz2. apply (Sh [] f q1 eq_refl Hb z Hz Hz2).
    - apply IH; auto.
      + cbn [ctx fold_left] in T2. change (vars (f :: q1)) with (fol_vars f ++ vars q1) in T2. revert T2.
        fold (ctx (fol_binds f ++ B) q1). generalize (ctx (fol_binds f ++ B) q1) as C. clear.
        assert (G : forall q b1 b2 C, (forall z, In z b2 -> In z b1) -> tidies b1 C q -> tidies b2 C q).
        { induction q as [|g q IHq]; intros b1 b2 C Hi; [auto|]. cbn. intros (A1 & A2 & A3). split; auto. split.
          - intros Hb x Hx. destruct (A2 Hb x Hx) as (A4 & A5). split; auto. intros N. destruct (A5 N) as [?|(? & ?)]; [auto|]. right. split; auto.
          - revert A3. apply IHq. intros z. rewrite !in_app_iff. intros [?|?]; auto. }
        intros C. apply G. intros z. rewrite !in_app_iff. tauto.
      + intros l g r -> Hb z Hz Hz2. apply (Sh (f :: l) g r eq_refl Hb z Hz Hz2).
  Qed.

  (** [x] has a value wherever there is a nested query *)
  Definition known_in (x : string) (B : list string) (q : list fol) : Prop :=
    forall l f r, q = l ++ f :: r -> has_body f = true -> In x (ctx B l) /\ ~ In x (fol_binds f).
  Lemma known_in_app x B q1 q2 : known_in x B q1 -> known_in x (ctx B q1) q2 -> known_in x B (q1 ++ q2).
  Proof.
    intros H1 H2 l f r E Hb. apply app_eq_app in E as (m & [(-> & E)|(-> & E)]).
    - destruct m as [|g m]; [|injection E as <- ->; now apply (H1 l f m)].
      cbn in E. subst q2. rewrite app_nil_r in *. now apply (H2 [] f r).
    - rewrite ctx_app. now apply (H2 m f r).
  Qed.
  Lemma known_in_one x B f : (has_body f = true -> In x B /\ ~ In x (fol_binds f)) -> known_in x B [f].
  Proof. intros H [|? [|? ?]] g r E Hb; try discriminate. injection E as <- <-. auto. Qed.

  Variable lx : lexicon.
  Hypothesis no_resolver : forall p, In p (map snd (lx_nouns lx ++ lx_adjectives lx ++ lx_verbs lx)) -> p <> "resolve_name".

  Definition shared (x : string) (before : list string) (q : list fol) : Prop :=
    forall z, In z before -> In z (vars q) -> z = x.

  Lemma only_tidies x before B q1 q2 : only x q1 q2 -> tidies before B q1 -> known_in x B q1 ->
    tidies (vars q1 ++ before) (ctx B q1) q2 -> tidies before B (q1 ++ q2).
  Proof.
    intros On T1 K1 T2. apply tidies_app; auto. intros l f r -> Hb z Hz Hz2.
    assert (z = x) as ->; [|now apply (K1 l f r)]. apply On; auto. apply in_vars. exists f. split; auto. apply in_or_app. right. now left.
  Qed.
  Lemma shared_l x before q1 q2 : shared x before (q1 ++ q2) -> shared x before q1.
  Proof. intros H z Hz Hv. apply H; auto. rewrite OptFolProofs.vars_app. apply in_or_app. auto. Qed.
  Lemma shared_r x before q1 q2 : only x q1 q2 -> shared x before (q1 ++ q2) -> shared x (vars q1 ++ before) q2.
  Proof.
    intros On H z Hz Hv. apply in_app_or in Hz as [Hz|Hz]; [now apply On|]. apply H; auto. rewrite OptFolProofs.vars_app. apply in_or_app. auto.
  Qed.

  Lemma word_tidy p args B : In p (map snd (lx_nouns lx ++ lx_adjectives lx ++ lx_verbs lx)) -> Forall (fun v => exists y, v = VVar y) args ->
    tidy B (FAtom (mkAtom p args)).
  Proof.
    intros Hp Ha. split; [now apply no_resolver|]. cbn. eapply Forall_impl; [|exact Ha]. intros v (y & ->). exact I.
  Qed.
  Lemma noun_in n : In n (lx_nouns lx) -> In (snd n) (map snd (lx_nouns lx ++ lx_adjectives lx ++ lx_verbs lx)).
  Proof. intros H. apply in_map. rewrite !in_app_iff. auto. Qed.
  Lemma adj_in n : In n (lx_adjectives lx) -> In (snd n) (map snd (lx_nouns lx ++ lx_adjectives lx ++ lx_verbs lx)).
  Proof. intros H. apply in_map. rewrite !in_app_iff. auto. Qed.
  Lemma verb_in n : In n (lx_verbs lx) -> In (snd n) (map snd (lx_nouns lx ++ lx_adjectives lx ++ lx_verbs lx)).
  Proof. intros H. apply in_map. rewrite !in_app_iff. auto. Qed.

  (** a nested query without variables to give a value to *)
  Lemma nested x before B f : has_body f = true -> In x B -> fol_binds f = [] -> tidy B f -> shared x before [f] ->
    tidies before B [f] /\ known_in x B [f].
  Proof.
    intros Hb Hx Eb Ht Sh. split.
    - cbn. split; auto. split; auto. intros _ z Hz. rewrite Eb. split; [intros []|]. intros _.
      destruct (string_dec z x) as [->|N]; auto. right. split; [|intros []]. intros Hz'. apply N, Sh; auto. unfold vars. cbn. now rewrite app_nil_r.
    - apply known_in_one. rewrite Eb. intros _. split; auto.
  Qed.

  Lemma atom_tidies before B a : tidy B (FAtom a) -> tidies before B [FAtom a].
  Proof. intros H. cbn. split; auto. split; auto. intros E. discriminate. Qed.

  Lemma fragment_tidy :
    (forall x b q, nbar_fol x b q -> nbar_in lx b -> forall before B, outside x B q -> shared x before q ->
       tidies before B q /\ known_in x B q) /\
    (forall x r q, rcl_fol x r q -> rcl_in lx r -> forall before B, outside x B q -> shared x before q -> In x B ->
       tidies before B q /\ known_in x B q) /\
    (forall x v q, vp_fol x v q -> vp_in lx v -> forall before B, outside x B q -> shared x before q -> In x B ->
       tidies before B q /\ known_in x B q) /\
    (forall x y o body q, np_fol x y o body q -> np_in lx o -> x <> y ->
       (exists a, body = FAtom a /\ forall B, tidy B body) -> (forall z, In z (fol_vars body) -> z = x \/ z = y) ->
       forall before B, outside x B q -> shared x before q -> In x B ->
       tidies before B q /\ known_in x B q).
  Proof.
    apply fragment_fol_ind; cbn [nbar_in rcl_in vp_in np_in].
    - intros x n Hn before B _ _. split; [|apply known_in_one; discriminate].
      apply atom_tidies, word_tidy; [now apply noun_in|]. constructor; eauto.
    - intros x a b q H IH (Ha & Hb) before B O Sh. destruct (IH Hb (x :: before) (x :: B)) as (T & K).
      { intros z Hz [<-|Hz']; auto. apply O; auto. unfold vars. cbn. auto. }
      { intros z [<-|Hz] Hz'; auto. apply Sh; auto. unfold vars. cbn. auto. }
      split.
      + cbn [OptFolSpec.tidies]. split; [apply word_tidy; [now apply adj_in|constructor; eauto]|]. split; [intros E; discriminate|].
        exact T.
      + change (unary (snd a) x :: q) with ([unary (snd a) x] ++ q). apply known_in_app; [apply known_in_one; discriminate|exact K].
    - intros x b r q1 q2 H1 IH1 H2 IH2 On (Hb & Hr) before B O Sh.
      destruct (IH1 Hb before B (outside_l _ _ _ _ O) (shared_l _ _ _ _ Sh)) as (T1 & K1).
      destruct (IH2 Hr (vars q1 ++ before) (ctx B q1) (outside_r _ _ _ _ On O) (shared_r _ _ _ _ On Sh)) as (T2 & K2).
      { apply in_ctx. left. apply (nbar_var _ _ _ H1). }
      split; [eapply only_tidies; eauto|now apply known_in_app].
    - auto.
    - intros x r1 r2 q1 q2 H1 IH1 H2 IH2 On (Hb & Hr) before B O Sh Hx.
      destruct (IH1 Hb before B (outside_l _ _ _ _ O) (shared_l _ _ _ _ Sh) Hx) as (T1 & K1).
      destruct (IH2 Hr (vars q1 ++ before) (ctx B q1) (outside_r _ _ _ _ On O) (shared_r _ _ _ _ On Sh)) as (T2 & K2).
      { apply in_ctx. auto. }
      split; [eapply only_tidies; eauto|now apply known_in_app].
    - intros x y t o q H IH N (Ht & Ho) before B O Sh Hx. apply IH; auto.
      + eexists. split; [reflexivity|]. intros B'. apply word_tidy; [now apply verb_in|repeat constructor; eauto].
      + cbn. intuition.
    - intros x y t o q H IH N (Ht & Ho) before B O Sh Hx. apply IH; auto.
      + eexists. split; [reflexivity|]. intros B'. apply word_tidy; [now apply verb_in|repeat constructor; eauto].
      + cbn. intuition.
    - intros x v q H IH Hv before B O Sh Hx. apply nested; auto. cbn. apply (IH Hv [] B); auto.
      + intros z Hz. apply O. unfold vars. cbn. now rewrite app_nil_r.
      + intros z [].
    - intros x y b body r H IH Nx Hb N (a & Ea & Ta) Hv before B O Sh Hx.
      assert (Or : forall z, In z (vars r) -> ~ In z B).
      { intros z Hz Hzb. apply Nx. assert (z = x) as <-; auto. apply O; auto. rewrite OptFolProofs.vars_app. apply in_or_app. auto. }
      destruct (IH Hb before B) as (T & K).
      { intros z Hz Hzb. exfalso. eapply Or; eauto. }
      { intros z Hz Hz'. exfalso. apply Nx. assert (z = x) as <-; auto. apply Sh; auto. rewrite OptFolProofs.vars_app. apply in_or_app. auto. }
      split.
      + apply (only_tidies y); auto.
        * intros z Hz Hz'. unfold vars in Hz'. cbn in Hz'. rewrite app_nil_r in Hz'. destruct (Hv z Hz') as [->|]; auto. contradiction.
        * specialize (Ta (ctx B r)). subst body. now apply atom_tidies.
      + apply known_in_app; [|subst body; apply known_in_one; discriminate].
        intros l f r' -> Hbo. split; [apply in_ctx; auto|]. intros F. apply Nx. apply binds_vars. apply in_binds. exists f. split; auto.
        apply in_or_app. right. now left.
    - intros x y d b body r H IH Nx (_ & Hb) N (a & Ea & Ta) Hv before B O Sh Hx.
      assert (Or : forall z, In z (vars r) -> ~ In z B).
      { intros z Hz Hzb. apply Nx. assert (z = x) as <-; auto. apply O; auto. apply det_vars. auto. }
      assert (T : forall before, shared x before r -> tidies before B (r ++ [body])).
      { intros bf Shr. destruct (IH Hb bf B) as (T & K).
        { intros z Hz Hzb. exfalso. eapply Or; eauto. }
        { intros z Hz Hz'. exfalso. apply Nx. assert (z = x) as <-; auto. }
        apply (only_tidies y); auto.
        * intros z Hz Hz'. unfold vars in Hz'. cbn in Hz'. rewrite app_nil_r in Hz'. destruct (Hv z Hz') as [->|]; auto. contradiction.
        * specialize (Ta (ctx B r)). subst body. now apply atom_tidies. }
      destruct d; cbn [det_fol].
      + split.
        * apply T. intros z Hz Hz'. apply Sh; auto. apply det_vars. auto.
        * destruct (IH Hb [] B) as (_ & K).
          { intros z Hz Hzb. exfalso. eapply Or; eauto. }
          { intros z []. }
          apply known_in_app; [|subst body; apply known_in_one; discriminate].
          intros l f r' -> Hbo. split; [apply in_ctx; auto|]. intros F. apply Nx. apply binds_vars. apply in_binds. exists f. split; auto.
          apply in_or_app. right. now left.
      + apply nested; auto. cbn. apply T. intros z [].
      + split.
        * cbn [OptFolSpec.tidies]. split.
          { split.
            - destruct (IH Hb [] B) as (T0 & _); auto.
              { intros z Hz Hzb. exfalso. eapply Or; eauto. }
              { intros z []. }
            - specialize (Ta (y :: B)). subst body. now apply (atom_tidies [] (y :: B)). }
          split; [|exact I]. intros _ z Hz. split; [intros _ []|]. intros Ny. cbn [fol_binds In] in Ny.
          destruct (string_dec z x) as [->|Nz]; auto. right. split; [|intros []]. intros Hz'. apply Nz, Sh; auto.
          unfold vars. cbn [flat_map det_fol]. now rewrite app_nil_r.
        * apply known_in_one. intros _. split; auto. cbn. intuition.
      + apply nested; auto. cbn. apply T. intros z [].
      + apply nested; auto. cbn. apply T. intros z [].
  Qed.
End Tidy.
