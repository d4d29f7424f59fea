(** * Parsing returns for grammars without empty constituents and unit cycles *)

From Coq Require Import ZArith String Ascii List Bool Arith Lia.
From Verif Require Import Py Effects Grammar Earley ParserSpec GrammarProofs EarleyProofs EarleyProofs2 EarleyProofs3 EarleyProofs4 EarleyProofs5.
Import ListNotations.
Local Open Scope string_scope.
Local Open Scope list_scope.
Local Open Scope outcome_scope.

Section Returns.
  Context {S : Type}.
  Variable scan_mean : option string -> S.
  Variable delta_mean gamma_mean : S.
  Variable re_match : string -> string -> outcome (option string).

  Notation rule := (grule S).
  Notation cstate := (@cstate S).
  Notation chart := (@chart S).
  Notation step := (step scan_mean re_match).
  Notation build_chart := (build_chart scan_mean gamma_mean re_match).
  Notation scans := (scans scan_mean re_match).
  Notation gamma := (gamma_rule gamma_mean).

  (** ** a state that does not start at 0 starts where another ends *)
  Definition ends_here (ch : chart) (p : nat) : Prop := exists x, In x (states_at ch p) /\ is_complete x = true.
  Definition supported (ch : chart) : Prop :=
    ends_ok ch /\ forall p s, In s (states_at ch p) -> (0 < p -> ends_here ch p) /\ (0 < s_start s -> ends_here ch (s_start s)).

  Lemma ends_here_mono ch ch' p : ext 0 ch ch' -> ends_here ch p -> ends_here ch' p.
  Proof. intros HE (x & Hx & Hc). exists x. split; [eapply ext_in; eassumption|exact Hc]. Qed.

  Lemma step_supported ix i ch s ch' : supported ch -> In s (states_at ch i) -> step ix i ch s = Ok ch' -> supported ch'.
  Proof.
    intros [He Hsup] Hs H. pose proof (step_grows _ _ _ _ _ _ _ H) as HG. split; [eapply step_ends; eassumption|].
    pose proof (He _ _ Hs) as Hsi.
    apply step_successors in H as (l & Hl & H). intros p x Hx.
    destruct (enqueue_all_only _ _ _ _ _ H Hx) as [Hold|[Hin Hp]].
    - assert (Hold' : In x (states_at ch p)) by (destruct (is_complete s); exact Hold).
      destruct (Hsup _ _ Hold') as [A B]. split; intros; eapply ends_here_mono; eauto.
    - assert (HX : In x (states_at ch' p)) by exact Hx. unfold successors in Hl. destruct (is_complete s) eqn:Ec.
      + subst l. apply in_map_iff in Hin as (w & <- & Hw). apply filter_In in Hw as [Hw _]. simpl in Hp. subst p. simpl. split.
        * intros _. exists s. split; [eapply ext_in; [exact HG|]; now rewrite Hsi|exact Ec].
        * intros H0. eapply ends_here_mono; [exact HG|]. destruct (Hsup _ _ Hw) as [_ B]. auto.
      + destruct Hl as (c & l2 & _ & -> & H2). destruct (Hsup _ _ Hs) as [A _]. apply in_app_or in Hin as [Hin|Hin].
        * apply in_map_iff in Hin as (r & <- & _). simpl in Hp. subst p. simpl. rewrite Hsi. split; intros; eapply ends_here_mono; eauto.
        * destruct (Nat.ltb _ _); [|subst; contradiction]. apply (scanned_spec _ _ _ _ _ _ x H2) in Hin as (w & m & _ & ->).
          simpl. rewrite Hsi. split.
          -- intros _. eexists. split; [exact HX|reflexivity].
          -- intros. eapply ends_here_mono; eauto.
  Qed.
  Lemma build_supported ix n text ch : build_chart n ix text = Ok ch -> supported ch.
  Proof.
    apply (build_chart_inv scan_mean gamma_mean re_match ix supported).
    - intros i c s c' Hc Hs Hst. eapply step_supported; eassumption.
    - intros ch0 H0. apply start_chart in H0 as (S1 & S2 & _). split.
      + intros [|p] s Hs; [rewrite S1 in Hs; destruct Hs as [<-|[]]; reflexivity|rewrite S2 in Hs by lia; contradiction].
      + intros [|p] s Hs; [rewrite S1 in Hs; destruct Hs as [<-|[]]; simpl; split; lia|rewrite S2 in Hs by lia; contradiction].
  Qed.

  (** ** ranks *)
  Definition acyclic_units (rules : list rule) (rank : string -> nat -> nat) : Prop :=
    forall r c, in_grammar rules r -> g_cons r = [c] -> k_type c = PRelation ->
      rank (k_pred c) (length (k_args c)) < rank (k_pred (g_ante r)) (length (k_args (g_ante r))).

  Lemma bound_list (f : nat -> nat) (l : list nat) : exists M, forall m, In m l -> f m <= M.
  Proof.
    induction l as [|m l (M & H)]; [exists 0; intros m []|]. exists (Nat.max (f m) M). intros x [<-|Hx]; [lia|].
    specialize (H x Hx). lia.
  Qed.

  Section Grammar.
    Variable rules : list rule.
    Variable k : nat.
    Variable text : string.
    Let ix := after delta_mean (Datatypes.S k) (grammar_rules rules).
    Hypothesis Hproper : Forall proper_rule rules.
    Hypothesis Hplain : forall r, in_grammar rules r -> solid r /\ k_type (g_ante r) = PRelation.
    Hypothesis Hre : re_ok re_match.
    Hypothesis Htotal : patterns_ok re_match (in_grammar rules).
    Variable rank : string -> nat -> nat.
    Hypothesis Hrank : acyclic_units rules rank.

    Lemma extraction_returns n ch : build_chart n ix text = Ok ch ->
      exists m ts, create_trees m ch (complete_gamma gamma_mean text) = Ok ts \/ completed_get (String.length text) (ch_completed ch) = None.
    Proof.
      intros Hb. destruct (completed_get (String.length text) (ch_completed ch)) as [l|] eqn:Ef; [|exists 0, []; auto].
      pose proof (build_closed scan_mean gamma_mean re_match ix text (extended_solid delta_mean rules k Hplain) n ch Hb) as (Ha & Hd & _).
      pose proof (build_completed_ok _ _ _ _ _ _ _ Hb) as [Hends Hcok].
      pose proof (build_origin _ _ _ _ _ _ _ Hb) as [_ Ho].
      pose proof (build_supported _ _ _ _ Hb) as [_ Hsup].
      destruct (bound_list (rank "s") (find_argument_counts (grammar_rules rules) "s")) as (M & HM).
      set (rk := fun c : constituent => if ptype_eqb (k_type c) PRelation then
                   (if String.eqb (k_pred c) "gamma" then M + 3 else if String.eqb (k_pred c) "delta" then M + 2
                    else 1 + rank (k_pred c) (length (k_args c))) else 0).
      set (good := fun s : cstate => (exists e, completed_at ch e s) \/ (s = complete_gamma gamma_mean text /\ 0 < String.length text)).
      assert (Hin : forall s, good s -> (exists e, In s (states_at ch e) /\ s_end s = e /\ completed_at ch e s) \/ (s = complete_gamma gamma_mean text /\ 0 < String.length text)).
      { intros s [(e & He)|H]; [|auto]. left. exists e. destruct (Hcok _ _ He) as [Hi _]. split; [exact Hi|]. split; [apply (Hends _ _ Hi)|exact He]. }
      assert (Hget : forall p, ends_here ch p -> exists l, completed_get p (ch_completed ch) = Some l).
      { intros p (x & Hx & Hc). destruct (Hd _ _ Hx) as [Hxe Hxd]. unfold done in Hxd. rewrite Hc in Hxd. destruct Hxd as [(l' & El & _) _].
        rewrite Hxe in El. eauto. }
      assert (Hgood : forall e s, completed_at ch e s -> good s /\ s_end s = e).
      { intros e s H. split; [left; eauto|]. destruct (Hcok _ _ H) as [Hi _]. now apply Hends. }
      assert (Hspan : forall s, good s -> s_start s < s_end s).
      { intros s Hs. destruct (Hin s Hs) as [(e & Hi & _ & He)|[-> Hl]]; [|exact Hl]. destruct (Hcok _ _ He) as [_ Hc].
        apply complete_progress; [|exact Hc]. apply (proj2 Ha e s Hi). }
      assert (Hcons : forall s, good s -> g_cons (s_rule s) <> []).
      { intros s Hs. destruct (Hin s Hs) as [(e & Hi & _)|[-> _]]; [|discriminate]. apply (sane_rule _ (proj2 (proj2 Ha e s Hi))). }
      assert (Hdict : forall s, good s -> 0 < s_start s -> exists l, completed_get (s_start s) (ch_completed ch) = Some l).
      { intros s Hs H0. destruct (Hin s Hs) as [(e & Hi & _)|[-> _]]; [|simpl in H0; lia]. apply Hget. destruct (Hsup _ _ Hi) as [_ B]. auto. }
      assert (Hdict2 : forall s, good s -> exists l, completed_get (s_end s) (ch_completed ch) = Some l).
      { intros s Hs. destruct (Hin s Hs) as [(e & _ & He & (l' & El & _))|[-> _]]; [rewrite He; eauto|simpl; eauto]. }
      assert (Hunit : forall s c x, good s -> is_terminal s = Ok false -> g_cons (s_rule s) = [c] ->
        completed_at ch (s_end s) x -> same_kind (g_ante (s_rule x)) c -> s_start x = s_start s ->
        rk (g_ante (s_rule x)) < rk (g_ante (s_rule s))).
      { intros s c x Hs Ht Ec Hx Hk _. destruct Hk as (K1 & K2 & K3).
        assert (Ex : rk (g_ante (s_rule x)) = rk c) by (unfold rk; now rewrite K1, K2, K3). rewrite Ex. clear Ex.
        assert (Hos : s_rule s = gamma \/ in_grammar rules (s_rule s) \/
          (exists m, s_rule s = delta_rule delta_mean m /\ In m (find_argument_counts (grammar_rules rules) "s")) \/
          exists c w m, s_rule s = scanned_rule c w m).
        { destruct (Hin s Hs) as [(e & Hi & _)|[-> _]]; [|left; reflexivity]. destruct (Ho _ _ Hi) as [_ Hos].
          destruct (origin_cases scan_mean delta_mean gamma_mean re_match rules (Datatypes.S k) text s Hos) as [E|[Hg|[H|(c' & w & m & E & _)]]]; auto.
          right; right; right. eauto. }
        destruct Hos as [E|[Hg|[(m & E & Hm)|(c' & w & m & E)]]].
        - rewrite E in Ec |- *. injection Ec as <-. unfold rk. simpl. lia.
        - pose proof (in_grammar_proper rules Hproper _ Hg) as [[N1 N2] Hp]. destruct (Hplain _ Hg) as [_ HT].
          destruct (Hp c) as [Hord _]; [rewrite Ec; left; reflexivity|].
          assert (E2 : rk (g_ante (s_rule s)) = 1 + rank (k_pred (g_ante (s_rule s))) (length (k_args (g_ante (s_rule s))))).
          { unfold rk. rewrite HT. simpl. apply String.eqb_neq in N1, N2. now rewrite N1, N2. }
          rewrite E2. unfold rk. destruct (ptype_eqb (k_type c) PRelation) eqn:ET; [|lia]. apply ptype_eqb_iff in ET.
          destruct (Hord ET) as [O1 O2]. apply String.eqb_neq in O1, O2. rewrite O1, O2.
          pose proof (Hrank _ _ Hg Ec ET). lia.
        - rewrite E in Ec |- *. injection Ec as <-. unfold rk. simpl. rewrite map_length, seq_length. specialize (HM _ Hm). lia.
        - exfalso. unfold is_terminal in Ht. rewrite E in Ht. discriminate. }
      destruct (Nat.eq_dec (String.length text) 0) as [E0|E0].
      - exists 1, []. left. simpl. rewrite E0. reflexivity.
      - destruct (create_trees_ok ch good (fun s => rk (g_ante (s_rule s))) Hgood Hspan Hcons Hdict Hdict2 Hunit (complete_gamma gamma_mean text)) as (m & ts & E).
        + right. split; [reflexivity|lia].
        + exists m, ts. left. exact E.
    Qed.

    Lemma strip_ok n ch t : build_chart n ix text = Ok ch -> tree_of ch (complete_gamma gamma_mean text) t -> exists x, strip_root t = Ok x.
    Proof.
      intros Hb HT. pose proof (build_completed_ok _ _ _ _ _ _ _ Hb) as [Hends Hcok].
      pose proof (build_origin _ _ _ _ _ _ _ Hb) as [_ Ho].
      inversion HT as [? ? ? Ht|? sts ts _ HC HF]; subst; [discriminate|]. simpl in HC.
      inversion HC as [|? ? ? j ? d sts' Hat Hk Hst _ HC']; subst. inversion HC'; subst. inversion HF as [|? y ? ? Hd HF']; subst.
      destruct (Hcok _ _ Hat) as [Hi _]. destruct (Ho _ _ Hi) as [_ Hod]. destruct Hk as (K1 & K2 & K3). simpl in K1, K2, K3.
      destruct (origin_cases scan_mean delta_mean gamma_mean re_match rules (Datatypes.S k) text d Hod) as [E|[Hg|[(m & E & Hm)|(c & w & m & E & Hsc & _)]]].
      - rewrite E in K1. discriminate.
      - exfalso. apply (in_grammar_proper rules Hproper) in Hg as [[Hn _] _]. contradiction.
      - inversion Hd as [? ? ? Ht2 Ec2|? sts ts Ht2 HC2 HF2]; subst.
        + exfalso. unfold is_terminal in Ht2. rewrite E in Ht2. simpl in Ht2. destruct m; discriminate.
        + rewrite E in HC2. simpl in HC2. inversion HC2; subst. inversion HF2; subst. simpl. eauto.
      - exfalso. rewrite E in K3. simpl in K3. destruct Hsc as [(T & _)|(T & _)]; congruence.
    Qed.

    Theorem parse_returns : exists N, forall n, N <= n ->
      exists ch roots, build_chart n ix text = Ok ch /\ extract_tree_roots gamma_mean n ch = Ok roots.
    Proof.
      set (N1 := Datatypes.S (length (possible scan_mean gamma_mean ix text))).
      assert (Hused : patterns_ok re_match (used ix)).
      { intros r c (a & m & Hr) Hc Ek. apply in_find_rules_after in Hr as [_ [Hr|(j & -> & _)]]; [now apply (Htotal r)|].
        destruct Hc as [<-|[]]. discriminate Ek. }
      destruct (build_chart_returns scan_mean gamma_mean re_match ix text Hre Hused (extended_solid delta_mean rules k Hplain) N1) as (ch & Hb & _); [unfold N1; lia|].
      assert (Hbn : forall n, N1 <= n -> build_chart n ix text = Ok ch).
      { intros n Hn. rewrite <- Hb. apply build_chart_mono; [congruence|exact Hn]. }
      destruct (extraction_returns _ _ Hb) as (m & ts & H).
      assert (Htext : ch_text ch = text) by (apply (build_origin _ _ _ _ _ _ _ Hb)).
      exists (Nat.max N1 m). intros n Hn. exists ch.
      unfold extract_tree_roots. rewrite Htext. cbn [s_end complete_gamma].
      destruct H as [Et|En].
      - assert (Et' : create_trees n ch (complete_gamma gamma_mean text) = Ok ts).
        { rewrite <- Et. apply create_trees_mono; [congruence|lia]. }
        destruct (completed_get (String.length text) (ch_completed ch)).
        + destruct (omap_ok strip_root ts) as (roots & Er).
          { intros t Ht. apply (create_trees_spec _ _ _ _ Et) in Ht. eapply strip_ok; eassumption. }
          exists roots. split; [apply Hbn; lia|]. rewrite Et'. simpl. exact Er.
        + exists []. split; [apply Hbn; lia|reflexivity].
      - exists []. split; [apply Hbn; lia|]. now rewrite En.
    Qed.
  End Grammar.
End Returns.
