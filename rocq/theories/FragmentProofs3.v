(** * The fragment of English: the grammar is well-behaved and has a derivation
    for every question *)

From Coq Require Import ZArith String Ascii List Bool Lia Arith.
From Verif Require Import LexerProofs Py PyFacts Effects EffectsFacts Grammar Earley ParserSpec GrammarProofs EarleyProofs
  EarleyProofs3 EarleyProofs4 EarleyProofs5 EarleyProofs6 ParserFacts Composer ComposerSpec TermProofs
  ComposerProofs ComposerProofs2 ComposerProofs3 ComposerProofs4 ComposerScope PropComposer
  DatalogSpec DatalogProofs FolSpec FolProofs FragmentSpec FragmentModel FragmentProofs PropFol
  QuestionSystem QuestionProofs QuestionProofs2 FragmentProofs2.
Import ListNotations.
Local Open Scope nat_scope.
Local Open Scope string_scope.
Local Open Scope list_scope.

Section Grammar.
  Variable lx : lexicon.
  (** the words of a lexicon *)
  Definition word_of (w : string) : Prop :=
    In w (lx_somes lx) \/ (exists n, In n (lx_nouns lx ++ lx_adjectives lx ++ lx_verbs lx) /\ fst n = w) \/
    exists k, In (w, k) (lx_numbers lx).
  Definition good_words : Prop := forall w, word_of w -> w <> "" /\ lower w = w.
  Hypothesis Hw : good_words.

  Definition name_ok (p : string) : Prop := p <> "delta" /\ p <> "gamma".
  (** the parts of the rules *)
  Inductive part : constituent -> Prop :=
  | part_word w s : w <> "" -> part (mkCons w [] PWord false s)
  | part_phrase p args : name_ok p -> Forall (fun x => In x ["E1"; "E2"]) args -> part (phrase p args).
  Record shape (r : crule) : Prop := {
    sh_ante : exists p args, g_ante r = phrase p args /\ name_ok p;
    sh_some : g_cons r <> [];
    sh_parts : Forall part (g_cons r);
    sh_mean : exists f, g_mean r = mkMeaning (Some f) None (DAtoms [])
  }.
  Definition unit_rank (p : string) (n : nat) : nat :=
    if String.eqb p "np" then 2 else if String.eqb p "nbar" then 1 else if String.eqb p "det" then 1 else 0.
  Definition unit_ok (r : crule) : Prop :=
    forall c, g_cons r = [c] -> k_type c = PRelation -> unit_rank (k_pred c) 0 < unit_rank (k_pred (g_ante r)) 0.

  Lemma word_rule p args w f : w <> "" -> name_ok p -> shape (rule_of (phrase p args) [quoted w] f) /\ unit_ok (rule_of (phrase p args) [quoted w] f).
  Proof.
    intros Nw Hp. split.
    - constructor; cbn; eauto; [discriminate|]. repeat constructor. exact Nw.
    - intros c [= <-]. discriminate.
  Qed.

  Lemma fragment_shape r : In r (fragment lx) -> shape r /\ unit_ok r.
  Proof.
    assert (L : forall n, In n (lx_nouns lx ++ lx_adjectives lx ++ lx_verbs lx) -> fst n <> "").
    { intros n Hn. apply Hw. right. left. eauto. }
    unfold fragment. rewrite !in_app_iff, !in_map_iff.
    intros [H|[(w & <- & H)|[(n & <- & H)|[(n & <- & H)|[(n & <- & H)|(n & <- & H)]]]]].
    - cbn in H. repeat (destruct H as [<-|H]; [split;
        [constructor; [eexists _, _; split; [reflexivity|split; discriminate]|discriminate| |eexists; reflexivity];
         cbn; repeat (constructor; [first [now constructor|constructor; [split; discriminate|repeat constructor; cbn; auto]]|]); constructor
        |intros c Hc Ht; cbn in Hc; try discriminate Hc; injection Hc as <-; first [discriminate Ht|cbn; lia]]|]). destruct H.
    - apply word_rule; [|split; discriminate]. apply Hw. now left.
    - apply word_rule; [|split; discriminate]. apply L. rewrite !in_app_iff. auto.
    - apply word_rule; [|split; discriminate]. apply L. rewrite !in_app_iff. auto.
    - apply word_rule; [|split; discriminate]. apply L. rewrite !in_app_iff. auto.
    - apply word_rule; [|split; discriminate]. apply Hw. right. right. exists (snd n). now destruct n.
  Qed.

  Lemma shape_plain r c : shape r -> In c (g_cons r) -> k_optional c = false.
  Proof. intros [_ _ P _] H. rewrite Forall_forall in P. destruct (P c H); reflexivity. Qed.
  (** *** any grammar with rules of this shape *)
  Section Rules.
    Variable G : list crule.
    Hypothesis HG : forall r, In r G -> shape r /\ unit_ok r.

    Lemma rules_variant r : in_grammar G r -> exists r0, In r0 G /\
      g_ante r = g_ante r0 /\ g_mean r = g_mean r0 /\ g_cons r = g_cons r0.
    Proof.
      intros (r0 & H0 & Va). exists r0. split; auto. apply same_variant; auto.
      intros c. apply shape_plain. now apply HG.
    Qed.
    Lemma rules_proper : Forall proper_rule G.
    Proof.
      apply Forall_forall. intros r Hr. destruct (HG r Hr) as ([(p & args & E & Hp) _ P _] & _). constructor.
      - rewrite E. destruct Hp. cbn. auto.
      - intros c Hc. rewrite Forall_forall in P. destruct (P c Hc) as [w s Nw|q qs (N1 & N2) F].
        + split; [intros T; discriminate T|]. intros T. discriminate T.
        + split; [intros _; cbn; auto|]. destruct F as [|x l Hx F]; intros T; cbn in T; [discriminate T|].
          destruct Hx as [<-|[<-|[]]]; discriminate T.
    Qed.
    Lemma rules_patterns re_match : patterns_ok re_match (in_grammar G).
    Proof.
      intros r c Hr Hc Ek. exfalso. destruct (rules_variant r Hr) as (r0 & H0 & _ & _ & Ec). rewrite Ec in Hc.
      destruct (HG r0 H0) as ([_ _ P _] & _). rewrite Forall_forall in P. destruct (P c Hc); discriminate.
    Qed.
    Lemma rules_acyclic : acyclic_units G unit_rank.
    Proof.
      intros r c Hr Hc Ht. destruct (rules_variant r Hr) as (r0 & H0 & Ea & _ & Ec). rewrite Ec in Hc. rewrite Ea.
      exact (proj2 (HG r0 H0) c Hc Ht).
    Qed.
    Lemma rules_good T r : (forall r, In r G -> well_scoped T r) ->
      in_grammar G r -> well_scoped T r /\ plain_rule r /\ solid r /\ quiet r.
    Proof.
      intros HT Hr. destruct (rules_variant r Hr) as (r0 & H0 & Ea & Em & Ec).
      destruct (HG r0 H0) as ([(p & args & E & _) Ne P (f & Ef)] & _).
      assert (Nw : forall c, In c (g_cons r0) -> k_type c = PWord -> k_pred c <> "").
      { intros c Hin. rewrite Forall_forall in P. destruct (P c Hin); cbn; auto. discriminate. }
      split; [|split; [|split]].
      - destruct (HT r0 H0) as [W1 W2 W3 W4 W5]. unfold declared in *.
        constructor; unfold declared; rewrite ?Ea, ?Em, ?Ec; auto.
      - split; [rewrite Ea, E; reflexivity|]. rewrite Ec. auto.
      - split; rewrite Ec; auto.
      - unfold quiet. rewrite Em, Ef. auto.
    Qed.
  End Rules.

  Lemma fragment_proper : Forall proper_rule (fragment lx).
  Proof. exact (rules_proper _ fragment_shape). Qed.
  Lemma fragment_patterns re_match : patterns_ok re_match (in_grammar (fragment lx)).
  Proof. exact (rules_patterns _ fragment_shape re_match). Qed.
  Lemma fragment_acyclic : acyclic_units (fragment lx) unit_rank.
  Proof. exact (rules_acyclic _ fragment_shape). Qed.
  Lemma fragment_good r : (forall p, lexical lx p -> p <> range_token /\ p <> body_token) ->
    in_grammar (fragment lx) r -> well_scoped (means lx) r /\ plain_rule r /\ solid r /\ quiet r.
  Proof. intros Hc. apply (rules_good _ fragment_shape). exact (fragment_scoped lx Hc). Qed.

  (** ** every question has a derivation *)
  Section Derivations.
  (** a grammar with the rules for phrases *)
  Variable G : list crule.
  Hypothesis HG : forall r, In r (tl (fragment lx)) -> In r G.
  Variable re_match : string -> string -> outcome (option string).
  Variable text : string.
  Notation deriv := (derives scanned re_match (in_grammar G) text).
  Notation deriv_all := (derives_all scanned re_match (in_grammar G) text).

  Definition reads (i : nat) (s : string) : Prop := take (String.length s) (drop i (lower text)) = s.
  Lemma drop_lower n : forall s, drop n (lower s) = lower (drop n s).
  Proof. induction n as [|n IH]; intros [|c s]; cbn; auto. Qed.
  Lemma drop_drop n : forall m s, drop m (drop n s) = drop (n + m) s.
  Proof. induction n as [|n IH]; intros m [|c s]; cbn; auto. destruct m; reflexivity. Qed.
  Lemma take_app_inv a : forall b s, take (String.length (append a b)) s = append a b ->
    take (String.length a) s = a /\ take (String.length b) (drop (String.length a) s) = b.
  Proof.
    induction a as [|c a IH]; intros b s; cbn [String.length append].
    - cbn. destruct s; auto.
    - destruct s as [|d s]; cbn; [discriminate|]. intros [= -> H]. destruct (IH _ _ H) as (H1 & H2). rewrite H1. auto.
  Qed.
  Lemma reads_app i a b : reads i (append a b) -> reads i a /\ reads (i + String.length a) b.
  Proof. unfold reads. intros H. apply take_app_inv in H as (H1 & H2). split; auto. now rewrite <- drop_drop. Qed.
  Lemma len_app a b : String.length (append a b) = String.length a + String.length b.
  Proof. induction a; cbn; auto. Qed.

  Definition derivable (c : constituent) (s : string) : Prop :=
    forall i, reads i s -> exists t, deriv c i (i + String.length s) t.

  Lemma derivable_word w b : lower w = w -> derivable (mkCons w [] PWord false b) w.
  Proof.
    intros Lw i H. set (v := take (String.length w) (drop i text)).
    assert (E : lower v = w).
    { unfold v. rewrite <- take_lower, <- drop_lower. exact H. }
    assert (El : String.length v = String.length w) by (rewrite <- E; symmetry; apply lower_length).
    eexists. rewrite <- El.
    apply (derives_word scanned re_match _ text (mkCons w [] PWord false b) i v (new_rule (mkCons w [] PWord false b) [quoted w] (scanned None) 0)).
    - reflexivity.
    - unfold stands_at. rewrite El. reflexivity.
    - exact E.
    - split; [repeat split|]. repeat split.
  Qed.
  Lemma derivable_all cs ss : Forall2 derivable cs ss -> forall i, reads i (joined ss) ->
    exists ts, deriv_all cs i (i + String.length (joined ss)) ts.
  Proof.
    induction 1 as [|c s cs ss Hc F IH]; intros i H.
    - exists []. cbn. rewrite Nat.add_0_r. constructor.
    - cbn [joined fold_right] in *. apply reads_app in H as (H1 & H2).
      destruct (Hc i H1) as (t & Ht). destruct (IH _ H2) as (ts & Hts). exists (t :: ts).
      rewrite len_app, Nat.add_assoc. econstructor; eassumption.
  Qed.
  Lemma derivable_rule r c ss s : In r G -> same_kind (g_ante r) c -> Forall2 derivable (g_cons r) ss -> joined ss = s ->
    derivable c s.
  Proof.
    intros Hr Hk F <- i H. destruct (derivable_all _ _ F i H) as (ts & Hts). eexists. eapply derives_rule; eauto.
    exists r. split; auto. apply (proj1 (variants_spec r)). destruct (proj2 (variants_spec r)) as (more & ->). now left.
  Qed.

  Lemma phrase_rule r : In r (map det_some (lx_somes lx) ++ map noun_word (lx_nouns lx) ++ map adj_word (lx_adjectives lx) ++
    map verb_word (lx_verbs lx) ++ map number_word (lx_numbers lx)) -> In r (tl (fragment lx)).
  Proof. intros H. unfold fragment. cbn [app tl]. do 14 right. exact H. Qed.
  Lemma lex_word n : In n (lx_nouns lx ++ lx_adjectives lx ++ lx_verbs lx) -> lower (fst n) = fst n.
  Proof. intros Hn. apply Hw. right. left. eauto. Qed.
  Ltac in_core := apply HG; unfold fragment; cbn [app tl]; cbn [In]; tauto.
  Ltac kind := repeat split.
  Ltac join := cbn [joined fold_right]; rewrite ?str_app_nil; reflexivity.

  Lemma noun_derivable n x : In n (lx_nouns lx) -> derivable (phrase "noun" [x]) (fst n).
  Proof.
    intros Hn. apply (derivable_rule (noun_word n) _ [fst n]); [|kind| |join].
    - apply HG, phrase_rule. rewrite !in_app_iff. right. left. now apply in_map.
    - repeat constructor. apply derivable_word, lex_word. rewrite !in_app_iff. auto.
  Qed.
  Lemma adj_derivable n x : In n (lx_adjectives lx) -> derivable (phrase "adj" [x]) (fst n).
  Proof.
    intros Hn. apply (derivable_rule (adj_word n) _ [fst n]); [|kind| |join].
    - apply HG, phrase_rule. rewrite !in_app_iff. right. right. left. now apply in_map.
    - repeat constructor. apply derivable_word, lex_word. rewrite !in_app_iff. auto.
  Qed.
  Lemma verb_derivable n x y : In n (lx_verbs lx) -> derivable (phrase "tv" [x; y]) (fst n).
  Proof.
    intros Hn. apply (derivable_rule (verb_word n) _ [fst n]); [|kind| |join].
    - apply HG, phrase_rule. rewrite !in_app_iff. right. right. right. left. now apply in_map.
    - repeat constructor. apply derivable_word, lex_word. rewrite !in_app_iff. auto.
  Qed.
  Lemma number_derivable w k x : In (w, k) (lx_numbers lx) -> derivable (phrase "number" [x]) w.
  Proof.
    intros Hn. apply (derivable_rule (number_word (w, k)) _ [w]); [|kind| |join].
    - apply HG, phrase_rule. rewrite !in_app_iff. do 4 right. now apply in_map.
    - repeat constructor. apply derivable_word, Hw. right. right. eauto.
  Qed.
  Lemma det_derivable d x : det_in lx d -> derivable (phrase "det" [x]) (det_text d).
  Proof.
    destruct d as [w| | |w k|w k]; cbn [det_in det_text]; intros Hd.
    - apply (derivable_rule (det_some w) _ [w]); [|kind| |join].
      + apply HG, phrase_rule. rewrite !in_app_iff. left. now apply in_map.
      + repeat constructor. apply derivable_word, Hw. now left.
    - apply (derivable_rule det_no _ ["no"]); [in_core|kind| |join]. repeat constructor. now apply derivable_word.
    - apply (derivable_rule det_every _ ["every"]); [in_core|kind| |join]. repeat constructor. now apply derivable_word.
    - apply (derivable_rule det_number _ [w]); [in_core|kind| |join]. repeat constructor. now apply (number_derivable w k).
    - apply (derivable_rule det_more _ ["more"; " "; "than"; " "; w]); [in_core|kind| |join].
      repeat constructor; try now apply derivable_word. now apply (number_derivable w k).
  Qed.

  Scheme nbar_mut := Induction for nbar Sort Prop
    with rcl_mut := Induction for rcl Sort Prop
    with vp_mut := Induction for vp Sort Prop
    with np_mut := Induction for np Sort Prop.
  Combined Scheme phrases_ind from nbar_mut, rcl_mut, vp_mut, np_mut.

  Lemma phrase_derivable :
    (forall b, nbar_in lx b -> forall x, derivable (phrase "nbar" [x]) (nbar_text b)) /\
    (forall r, rcl_in lx r -> forall x, derivable (phrase "rcl" [x]) (rcl_text r)) /\
    (forall v, vp_in lx v -> forall x, derivable (phrase "vp" [x]) (vp_text v)) /\
    (forall o, np_in lx o -> forall x, derivable (phrase "np" [x]) (np_text o)).
  Proof.
    apply phrases_ind; cbn [nbar_in rcl_in vp_in np_in nbar_text rcl_text vp_text np_text].
    - intros n Hn x. apply (derivable_rule nbar_noun _ [fst n]); [in_core|kind| |join]. repeat constructor. now apply noun_derivable.
    - intros a b IH (Ha & Hb) x. apply (derivable_rule nbar_adj _ [fst a; " "; nbar_text b]); [in_core|kind| |join].
      repeat constructor; [now apply adj_derivable|now apply derivable_word|now apply IH].
    - intros b IH r IHr (Hb & Hr) x. apply (derivable_rule nbar_rel _ [nbar_text b; " "; rcl_text r]); [in_core|kind| |join].
      repeat constructor; [now apply IH|now apply derivable_word|now apply IHr].
    - intros v IH Hv x. apply (derivable_rule rcl_that _ ["that"; " "; vp_text v]); [in_core|kind| |join].
      repeat constructor; [now apply derivable_word|now apply derivable_word|now apply IH].
    - intros r1 IH1 r2 IH2 (H1 & H2) x. apply (derivable_rule rcl_and _ [rcl_text r1; " "; "and"; " "; rcl_text r2]); [in_core|kind| |join].
      repeat constructor; try (now apply derivable_word); auto.
    - intros t o IH (Ht & Ho) x. apply (derivable_rule vp_active _ [fst t; " "; np_text o]); [in_core|kind| |join].
      repeat constructor; [now apply verb_derivable|now apply derivable_word|now apply IH].
    - intros t o IH (Ht & Ho) x. apply (derivable_rule vp_passive _ ["is"; " "; fst t; " "; "by"; " "; np_text o]); [in_core|kind| |join].
      repeat constructor; try (now apply derivable_word); [now apply verb_derivable|now apply IH].
    - intros v IH Hv x. apply (derivable_rule vp_not _ ["does"; " "; "not"; " "; vp_text v]); [in_core|kind| |join].
      repeat constructor; try (now apply derivable_word). now apply IH.
    - intros b IH Hb x. apply (derivable_rule np_bare _ [nbar_text b]); [in_core|kind| |join]. repeat constructor. now apply IH.
    - intros d b IH (Hd & Hb) x. apply (derivable_rule np_det _ [det_text d; " "; nbar_text b]); [in_core|kind| |join].
      repeat constructor; [now apply det_derivable|now apply derivable_word|now apply IH].
  Qed.
  (** a sentence, if there is such a rule *)
  Lemma sentence_derivable r ss s : In r G -> same_kind (g_ante r) (phrase "s" ["E1"]) -> Forall2 derivable (g_cons r) ss -> joined ss = s ->
    s = lower text -> exists t, deriv (phrase "s" ["E1"]) 0 (String.length text) t.
  Proof.
    intros Hr Hk F Ej E. pose proof (derivable_rule r (phrase "s" ["E1"]) ss s Hr Hk F Ej) as D.
    destruct (D 0) as (t & Ht).
    - unfold reads. rewrite E. cbn [drop]. generalize (lower text). intros u. destruct u; cbn; [reflexivity|].
      f_equal. induction u; cbn; congruence.
    - exists t. rewrite E, lower_length in Ht. exact Ht.
  Qed.
  End Derivations.

  Theorem question_derivable re_match text q : question_in lx q -> question_text q = lower text ->
    exists t, derives scanned re_match (in_grammar (fragment lx)) text (phrase "s" ["E1"]) 0 (String.length text) t.
  Proof.
    destruct q as [b v]. intros (Hb & Hv) E.
    assert (HG : forall r, In r (tl (fragment lx)) -> In r (fragment lx)) by (intros r Hr; right; exact Hr).
    apply (sentence_derivable (fragment lx) re_match text s_which ["which"; " "; nbar_text b; " "; vp_text v] (question_text (Which b v)));
      [now left|repeat split| |cbn [joined fold_right]; rewrite ?str_app_nil; reflexivity|exact E].
    repeat constructor; try (now apply derivable_word); now apply phrase_derivable.
  Qed.

  (** ** questions are in lower case *)
  Lemma phrase_lower :
    (forall b, nbar_in lx b -> lower (nbar_text b) = nbar_text b) /\
    (forall r, rcl_in lx r -> lower (rcl_text r) = rcl_text r) /\
    (forall v, vp_in lx v -> lower (vp_text v) = vp_text v) /\
    (forall o, np_in lx o -> lower (np_text o) = np_text o).
  Proof.
    assert (Ld : forall d, det_in lx d -> lower (det_text d) = det_text d).
    { intros [w| | |w k|w k]; cbn [det_in det_text]; intros Hd; try reflexivity; rewrite ?lower_append;
        (replace (lower w) with w; [reflexivity|symmetry; apply Hw; unfold word_of; eauto]). }
    apply phrases_ind; cbn [nbar_in rcl_in vp_in np_in nbar_text rcl_text vp_text np_text].
    - intros n Hn. apply lex_word. rewrite !in_app_iff. auto.
    - intros a b IH (Ha & Hb). rewrite !lower_append, (IH Hb), lex_word; [reflexivity|]. rewrite !in_app_iff. auto.
    - intros b IH r IHr (Hb & Hr). rewrite !lower_append, (IH Hb), (IHr Hr). reflexivity.
    - intros v IH Hv. rewrite !lower_append, (IH Hv). reflexivity.
    - intros r1 IH1 r2 IH2 (H1 & H2). rewrite !lower_append, (IH1 H1), (IH2 H2). reflexivity.
    - intros t o IH (Ht & Ho). rewrite !lower_append, (IH Ho), lex_word; [reflexivity|]. rewrite !in_app_iff. auto.
    - intros t o IH (Ht & Ho). rewrite !lower_append, (IH Ho), lex_word; [reflexivity|]. rewrite !in_app_iff. auto.
    - intros v IH Hv. rewrite !lower_append, (IH Hv). reflexivity.
    - auto.
    - intros d b IH (Hd & Hb). rewrite !lower_append, (IH Hb), (Ld d Hd). reflexivity.
  Qed.
  Lemma question_lower q : question_in lx q -> lower (question_text q) = question_text q.
  Proof.
    destruct q as [b v]. intros (Hb & Hv). cbn [question_text]. destruct phrase_lower as (Ln & _ & Lv & _).
    rewrite !lower_append, (Ln b Hb), (Lv v Hv). reflexivity.
  Qed.
End Grammar.
