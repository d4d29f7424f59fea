(** * Soundness: every tree is a derivation *)

From Coq Require Import ZArith String Ascii List Bool Arith Lia.
From Verif Require Import Py Effects Grammar Earley ParserSpec GrammarProofs EarleyProofs EarleyProofs2.
Import ListNotations.
Local Open Scope string_scope.
Local Open Scope list_scope.
Local Open Scope outcome_scope.

(** ** the index after delta rules were added *)
Section Delta.
  Context {S : Type}.
  Variable delta_mean : S.
  Notation rule := (grule S).

  Lemma delta_variants k : create_rule_variants (delta_rule delta_mean k) = [delta_rule delta_mean k].
  Proof. reflexivity. Qed.

  Lemma add_delta_fold (ix : gindex S) counts :
    fold_left (fun ix c => add_rule ix (delta_rule delta_mean c)) counts ix =
    fold_left add_rule (map (delta_rule delta_mean) counts) ix.
  Proof. revert ix. induction counts as [|c counts IH]; intros ix; simpl; auto. Qed.

  Lemma find_rules_delta (ix : gindex S) c n :
    find_rules (add_delta_rules delta_mean ix) c n =
    find_rules ix c n ++ (if String.eqb "delta" c && Nat.eqb 1 n then map (delta_rule delta_mean) (find_argument_counts ix "s") else []).
  Proof.
    unfold add_delta_rules. rewrite add_delta_fold, find_rules_fold. f_equal.
    induction (find_argument_counts ix "s") as [|k counts IH].
    - destruct (_ && _); reflexivity.
    - cbn [map filter]. change (has_key c n (delta_rule delta_mean k)) with (String.eqb "delta" c && Nat.eqb 1 n).
      destruct (String.eqb "delta" c && Nat.eqb 1 n); [|exact IH].
      cbn [flat_map map]. rewrite delta_variants, IH. reflexivity.
  Qed.

  Lemma index_get_add (ix : gindex S) r d : k_pred (g_ante r) <> d -> index_get d (add_rule ix r) = index_get d ix.
  Proof.
    intros H. unfold add_rule. rewrite index_get_put. destruct (String.eqb_spec d (k_pred (g_ante r))); [congruence|reflexivity].
  Qed.
  Lemma counts_delta (ix : gindex S) : find_argument_counts (add_delta_rules delta_mean ix) "s" = find_argument_counts ix "s".
  Proof.
    unfold add_delta_rules. generalize (find_argument_counts ix "s") at 1. intros counts. revert ix.
    induction counts as [|k counts IH]; intros ix; simpl; [reflexivity|]. rewrite IH.
    unfold find_argument_counts. rewrite index_get_add; [reflexivity|]. discriminate.
  Qed.

  (** the index after [k] parses *)
  Fixpoint after (k : nat) (ix : gindex S) : gindex S :=
    match k with O => ix | Datatypes.S k' => add_delta_rules delta_mean (after k' ix) end.
  Lemma counts_after k (ix : gindex S) : find_argument_counts (after k ix) "s" = find_argument_counts ix "s".
  Proof. induction k; simpl; [reflexivity|]. now rewrite counts_delta. Qed.
  Lemma find_rules_after k (ix : gindex S) c n :
    find_rules (after k ix) c n = find_rules ix c n ++
      (if String.eqb "delta" c && Nat.eqb 1 n then concat (repeat (map (delta_rule delta_mean) (find_argument_counts ix "s")) k) else []).
  Proof.
    induction k as [|k IH].
    - simpl. destruct (_ && _); now rewrite app_nil_r.
    - cbn [after]. rewrite find_rules_delta, IH, counts_after. destruct (String.eqb "delta" c && Nat.eqb 1 n); [|now rewrite app_nil_r].
      rewrite <- app_assoc. f_equal. replace (Datatypes.S k) with (k + 1) by lia. rewrite repeat_app, concat_app. simpl. now rewrite app_nil_r.
  Qed.

  Lemma in_counts_add (ix : gindex S) r n :
    In n (find_argument_counts (add_rule ix r) "s") <->
    In n (find_argument_counts ix "s") \/ (k_pred (g_ante r) = "s" /\ length (k_args (g_ante r)) = n).
  Proof.
    unfold find_argument_counts, add_rule. rewrite index_get_put.
    assert (HP : forall (rs : list rule) k l, In n (map fst (counts_put k rs l)) <-> In n (map fst l) \/ k = n).
    { intros rs k. induction l as [|[k' rs'] l IH]; simpl; [intuition|].
      destruct (Nat.eqb_spec k k') as [->|Hk]; simpl; [intuition congruence|]. rewrite IH. intuition. }
    destruct (String.eqb_spec "s" (k_pred (g_ante r))) as [E|E].
    - rewrite HP, <- E. destruct (index_get "s" ix); simpl; intuition.
    - intuition congruence.
  Qed.
  Lemma in_counts (rules : list rule) n :
    In n (find_argument_counts (grammar_rules rules) "s") <->
    exists r, In r rules /\ k_pred (g_ante r) = "s" /\ length (k_args (g_ante r)) = n.
  Proof.
    unfold grammar_rules. assert (H : forall ix, In n (find_argument_counts (fold_left add_rule rules ix) "s") <->
      In n (find_argument_counts ix "s") \/ exists r, In r rules /\ k_pred (g_ante r) = "s" /\ length (k_args (g_ante r)) = n).
    { induction rules as [|r rules IH]; intros ix; simpl.
      - split; [auto|]. intros [H|(? & [] & _)]. exact H.
      - rewrite IH, in_counts_add. split.
        + intros [[H|[H1 H2]]|(r' & H & H')]; [auto|right; exists r; auto|right; exists r'; auto].
        + intros [H|(r' & [<-|H] & H')]; [auto|left; right; exact H'|right; exists r'; auto]. }
    rewrite H. simpl. split; [intros [[]|H']; exact H'|auto].
  Qed.

  Lemma in_find_rules_after (rules : list rule) k c n r :
    In r (find_rules (after k (grammar_rules rules)) c n) ->
    (k_pred (g_ante r) = c /\ length (k_args (g_ante r)) = n) /\
    (in_grammar rules r \/
     exists m, r = delta_rule delta_mean m /\ In m (find_argument_counts (grammar_rules rules) "s")).
  Proof.
    rewrite find_rules_after, in_app_iff. intros [H|H].
    - apply in_find_rules in H. tauto.
    - destruct (String.eqb_spec "delta" c) as [<-|]; [|contradiction]. destruct (Nat.eqb_spec 1 n) as [<-|]; [|contradiction].
      simpl in H. apply in_concat in H as (l & Hl & Hr). apply repeat_spec in Hl. subst l.
      apply in_map_iff in Hr as (m & <- & Hm). split; [split; reflexivity|]. right. exists m. auto.
  Qed.
End Delta.

(** ** chart invariants *)
Section Sound.
  Context {S : Type}.
  Variable scan_mean : option string -> S.
  Variable delta_mean gamma_mean : S.
  Variable re_match : string -> string -> outcome (option string).

  Notation rule := (grule S).
  Notation cstate := (@cstate S).
  Notation chart := (@chart S).
  Notation step := (step scan_mean re_match).
  Notation build_chart := (build_chart scan_mean gamma_mean re_match).
  Notation scans := (scans scan_mean re_match).
  Notation gamma := (gamma_rule gamma_mean).

  Section ChartInvariant.
    Variable ix : gindex S.
    Variable Q : chart -> Prop.
    Hypothesis HQ : forall i ch s ch', Q ch -> In s (states_at ch i) -> step ix i ch s = Ok ch' -> Q ch'.
    Lemma process_position_inv n : forall i j ch ch', Q ch -> process_position scan_mean re_match n ix i j ch = Ok ch' -> Q ch'.
    Proof.
      induction n as [|n IH]; intros i j ch ch' Ha H; simpl in H; [discriminate|].
      destruct (nth_error (states_at ch i) j) as [s|] eqn:E; [|inversion H; subst; auto].
      apply obind_ok in H as (ch1 & H1 & H). eapply IH; [|exact H]. eapply HQ; [exact Ha| |exact H1]. eapply nth_error_In; eassumption.
    Qed.
    Lemma process_positions_inv n is : forall ch ch', Q ch -> process_positions scan_mean re_match n ix is ch = Ok ch' -> Q ch'.
    Proof.
      induction is as [|i is IH]; intros ch ch' Ha H; simpl in H; [inversion H; subst; auto|].
      apply obind_ok in H as (ch1 & H1 & H). eapply IH; [|exact H]. eapply process_position_inv; eassumption.
    Qed.
    Lemma build_chart_inv n text ch :
      (forall ch0, enqueue (incomplete_gamma gamma_mean) 0 (empty_chart text) = Ok ch0 -> Q ch0) ->
      build_chart n ix text = Ok ch -> Q ch.
    Proof.
      intros H0 H. apply obind_ok in H as (ch0 & E & H). eapply process_positions_inv; [|exact H]. auto.
    Qed.
  End ChartInvariant.

  Lemma step_grows ix i ch s ch' : step ix i ch s = Ok ch' -> ext 0 ch ch'.
  Proof.
    intros H. apply step_successors in H as (l & _ & H). apply enqueue_all_ext with (i := 0) in H; [|intros; lia].
    destruct (is_complete s); [|exact H]. destruct H as [A B C D]. split; auto.
  Qed.
  Lemma step_completed ix i ch s ch' : step ix i ch s = Ok ch' ->
    ch_completed ch' = if is_complete s then completed_add s (ch_completed ch) else ch_completed ch.
  Proof.
    intros H. apply step_successors in H as (l & _ & H). apply enqueue_all_completed in H. rewrite H.
    destruct (is_complete s); reflexivity.
  Qed.

  (** the completed states are the completed states of the chart *)
  Definition completed_ok (ch : chart) : Prop :=
    forall e s, completed_at ch e s -> In s (states_at ch e) /\ is_complete s = true.
  Definition ends_ok (ch : chart) : Prop := forall p s, In s (states_at ch p) -> s_end s = p.

  Lemma step_ends ix i ch s ch' : ends_ok ch -> step ix i ch s = Ok ch' -> ends_ok ch'.
  Proof.
    intros He H p x Hx. apply step_successors in H as (l & _ & H).
    destruct (enqueue_all_only _ _ _ _ _ H Hx) as [Hx'|[_ E]]; auto.
    apply He. destruct (is_complete s); exact Hx'.
  Qed.
  Lemma completed_at_add (ch : chart) d e s x :
    ch_completed ch = completed_add s d -> completed_at ch e x ->
    (exists l, completed_get e d = Some l /\ In x l) \/ (e = s_end s /\ x = s).
  Proof.
    intros E (l & El & Hl). rewrite E, completed_get_add in El. destruct (Nat.eqb_spec e (s_end s)) as [->|Hn].
    - injection El as <-. destruct (completed_get (s_end s) d) as [l|].
      + apply in_app_or in Hl as [Hl|[<-|[]]]; [left; eauto|auto].
      + destruct Hl as [<-|[]]. auto.
    - left. eauto.
  Qed.
  Lemma step_completed_ok ix i ch s ch' : ends_ok ch -> completed_ok ch -> In s (states_at ch i) ->
    step ix i ch s = Ok ch' -> completed_ok ch'.
  Proof.
    intros He Hc Hs H e x Hx. pose proof (step_grows _ _ _ _ _ H) as HG. pose proof (step_completed _ _ _ _ _ H) as HC.
    destruct (is_complete s) eqn:Ec.
    - destruct (completed_at_add _ _ _ _ _ HC Hx) as [Hold|[-> ->]].
      + destruct (Hc e x Hold) as [? ?]. split; auto. eapply ext_in; eassumption.
      + split; auto. eapply ext_in; [exact HG|]. rewrite (He _ _ Hs). exact Hs.
    - assert (Hold : completed_at ch e x) by (destruct Hx as (l & El & Hl); exists l; rewrite <- HC; auto).
      destruct (Hc e x Hold) as [? ?]. split; auto. eapply ext_in; eassumption.
  Qed.

  Lemma build_completed_ok ix n text ch : build_chart n ix text = Ok ch -> ends_ok ch /\ completed_ok ch.
  Proof.
    apply (build_chart_inv ix (fun ch => ends_ok ch /\ completed_ok ch)).
    - intros i ch0 s ch' [He Hc] Hs H. split; [eapply step_ends; eassumption|eapply step_completed_ok; eassumption].
    - intros ch0 H0. apply start_chart in H0 as (H1 & H2 & _ & H4 & _). split.
      + intros [|p] s Hs; [rewrite H1 in Hs; destruct Hs as [<-|[]]; reflexivity|rewrite H2 in Hs by lia; contradiction].
      + intros e s (l & El & _). rewrite H4 in El. discriminate.
  Qed.

  (** where a state comes from *)
  Definition origin (ix : gindex S) (text : string) (s : cstate) : Prop :=
    s_rule s = gamma \/ (exists c n, In (s_rule s) (find_rules ix c n)) \/
    (exists c w m, s_rule s = scanned_rule c w m /\ scans text (s_start s) c w m /\
       s_dot s = 2 /\ s_end s = s_start s + String.length w).

  Lemma build_origin ix n text ch : build_chart n ix text = Ok ch ->
    ch_text ch = text /\ forall p s, In s (states_at ch p) -> s_end s = p /\ origin ix text s.
  Proof.
    apply (build_chart_all scan_mean gamma_mean re_match ix text (origin ix text)).
    - intros s c r _ _ _ Hr. right. left. simpl. eauto.
    - intros s c w m _ _ Hs _. right. right. exists c, w, m. simpl. auto.
    - intros w c s Hw _ _ _ Hn _ _. unfold advanced_state, origin. simpl. destruct Hw as [Hw|[Hw|(d & x & m & Er & _ & Ed & _)]]; auto.
      exfalso. unfold next_cons in Hn. rewrite Er, Ed in Hn. discriminate.
    - left. reflexivity.
  Qed.

  (** induction on the trees of a state *)
  Lemma tree_of_ind' (ch : chart) (P : cstate -> tree -> Prop)
    (Ht : forall s c cs, is_terminal s = Ok true -> g_cons (s_rule s) = c :: cs ->
       P s (Node (k_pred (g_ante (s_rule s))) [] (k_pred c) (s_rule s)))
    (Hi : forall s sts ts, is_terminal s = Ok false -> chain ch (g_cons (s_rule s)) (s_start s) (s_end s) sts ->
       Forall2 (tree_of ch) sts ts -> Forall2 P sts ts ->
       P s (Node (k_pred (g_ante (s_rule s))) ts "" (s_rule s))) :
    forall s t, tree_of ch s t -> P s t.
  Proof.
    fix IH 3. intros s t [s0 c cs H1 H2|s0 sts ts H1 H2 H3].
    - eapply Ht; eassumption.
    - eapply Hi; try eassumption.
      revert H3. clear -IH. revert sts ts. fix IH2 3. intros sts ts [|x y l l' Hx HF]; constructor.
      + apply IH. exact Hx.
      + apply IH2. exact HF.
  Qed.

  (** ** grammars that do not use the parser's own names *)
  Definition ordinary (c : constituent) : Prop := k_type c = PRelation -> k_pred c <> "gamma" /\ k_pred c <> "delta".
  Record proper_rule (r : rule) : Prop := {
    proper_name : k_pred (g_ante r) <> "delta" /\ k_pred (g_ante r) <> "gamma";
    proper_consequents : forall c, In c (g_cons r) -> ordinary c /\ hd "" (k_args c) <> "terminal"
  }.
  Lemma variant_incl first cs v : variant first cs v -> incl v cs.
  Proof.
    induction 1; unfold incl in *; intros x Hx; simpl in *; intuition.
  Qed.
  Lemma proper_variant r0 r : rule_variant r0 r -> proper_rule r0 -> proper_rule r.
  Proof.
    intros (E & _ & _ & _ & Hv) [H1 H2]. split; [now rewrite E|]. intros c Hc. apply H2. eapply variant_incl; eassumption.
  Qed.

  Section Trees.
    Variable rules : list rule.
    Variable k : nat.
    Variable text : string.
    Let ix := after delta_mean k (grammar_rules rules).
    Hypothesis Hproper : Forall proper_rule rules.

    Lemma in_grammar_proper r : in_grammar rules r -> proper_rule r.
    Proof. intros (r0 & H0 & Hv). rewrite Forall_forall in Hproper. eapply proper_variant; eauto. Qed.

    Lemma origin_cases s : origin ix text s ->
      (s_rule s = gamma) \/ in_grammar rules (s_rule s) \/
      (exists m, s_rule s = delta_rule delta_mean m /\ In m (find_argument_counts (grammar_rules rules) "s")) \/
      (exists c w m, s_rule s = scanned_rule c w m /\ scans text (s_start s) c w m /\ s_end s = s_start s + String.length w).
    Proof.
      intros [H|[(c & n & H)|(c & w & m & H1 & H2 & _ & H3)]]; auto.
      - apply in_find_rules_after in H as [_ [H|H]]; auto.
      - right; right; right. exists c, w, m. auto.
    Qed.

    (** a scanned state is a leaf *)
    Lemma scanned_derives (G : rule -> Prop) c0 s c w m :
      s_rule s = scanned_rule c w m -> scans text (s_start s) c w m -> s_end s = s_start s + String.length w ->
      same_kind (g_ante (s_rule s)) c0 ->
      derives scan_mean re_match G text c0 (s_start s) (s_end s) (Node (k_pred (g_ante (s_rule s))) [] w (s_rule s)).
    Proof.
      intros Er Hsc Ee Hk. rewrite Ee. assert (Hk2 := Hk). destruct Hk2 as (K1 & K2 & K3). rewrite Er in K1, K2, K3. simpl in K1, K2, K3.
      destruct Hsc as [(T & -> & -> & Hl)|(T & -> & word & n & Hr & -> & Hn)].
      - rewrite Er. cbn [scanned_rule new_rule g_ante k_pred]. rewrite K1.
        rewrite K1 in Hl.
        assert (Hlen : String.length (take (String.length (k_pred c0)) (drop (s_start s) text)) = String.length (k_pred c0)).
        { rewrite <- lower_length, Hl. reflexivity. }
        rewrite <- Hlen. apply derives_word; [congruence| |exact Hl|].
        + unfold stands_at. rewrite Hlen. reflexivity.
        + split; [|split; [reflexivity|split; [reflexivity|]]].
          * rewrite Er in Hk. exact Hk.
          * simpl; congruence.
      - rewrite Er. cbn [scanned_rule new_rule g_ante k_pred]. rewrite K1.
        eapply derives_regexp with (m := word); [congruence| | | |].
        + now rewrite <- K1.
        + exists (drop n word). symmetry. apply take_drop.
        + intros E. assert (String.length (take n word) = 0) by now rewrite E. rewrite take_length_eq in H; lia.
        + split; [|split; [reflexivity|split; reflexivity]]. rewrite Er in Hk. exact Hk.
    Qed.

    Definition good_state (s : cstate) : Prop := origin ix text s.

    Variable ch : chart.
    Hypothesis Hch : forall e s, completed_at ch e s -> s_end s = e /\ origin ix text s.

    Lemma tree_derives s t : tree_of ch s t -> origin ix text s ->
      forall c, same_kind (g_ante (s_rule s)) c -> ordinary c ->
        derives scan_mean re_match (in_grammar rules) text c (s_start s) (s_end s) t.
    Proof.
      intros HT. revert s t HT.
      apply (tree_of_ind' ch (fun s t => origin ix text s -> forall c, same_kind (g_ante (s_rule s)) c -> ordinary c ->
        derives scan_mean re_match (in_grammar rules) text c (s_start s) (s_end s) t));
        [intros s c cs Ht Ec Ho c0 Hk Hord|intros s sts ts Ht HC HF IH Ho c0 Hk Hord].
      - destruct (origin_cases _ Ho) as [E|[Hg|[(m & E & _)|(c1 & w & m & E & Hsc & Ee)]]].
        + exfalso. unfold is_terminal in Ht. rewrite E in Ht. discriminate.
        + exfalso. apply in_grammar_proper in Hg as [_ Hp]. rewrite Ec in Hp. destruct (Hp c (or_introl eq_refl)) as [_ Hc].
          unfold is_terminal in Ht. rewrite Ec in Ht. destruct (k_args c); [discriminate|]. injection Ht as Ht. apply String.eqb_eq in Ht. auto.
        + exfalso. unfold is_terminal in Ht. rewrite E in Ht. simpl in Ht. destruct (map _ (seq 1 m)) eqn:Em; [discriminate|].
          destruct m; [discriminate|]. simpl in Em. injection Em as <- _. discriminate.
        + assert (k_pred c = w) by (rewrite E in Ec; injection Ec as <- _; reflexivity). subst w.
          eapply scanned_derives; eassumption.
      - destruct (origin_cases _ Ho) as [E|[Hg|[(m & E & _)|(c1 & w & m & E & _)]]].
        + exfalso. rewrite E in Hk. destruct Hk as (K1 & _ & K3). simpl in K1, K3. destruct (Hord (eq_sym K3)) as [H _]. congruence.
        + destruct Hk as (K1 & K2 & K3). rewrite K1. apply derives_rule; [exact Hg|repeat split; auto|].
          apply in_grammar_proper in Hg as [_ Hp]. clear Ho Ht K1 K2 K3 Hord.
          assert (Hp' : forall c, In c (g_cons (s_rule s)) -> ordinary c) by (intros c Hc; apply Hp; exact Hc).
          clear Hp. revert ts HF IH. induction HC as [i|c cs i j l x sts Hat Hk Hst Hj HC IHC]; intros ts HF IH.
          * inversion HF; subst. constructor.
          * inversion HF as [|? t ? ts' Hx HF']; subst. inversion IH as [|? ? ? ? Hd IH']; subst.
            destruct (Hch _ _ Hat) as [Hend Hox].
            econstructor.
            -- apply Hd; auto. apply Hp'. left; auto.
            -- rewrite Hend. apply IHC; auto. intros d Hd'. apply Hp'. right; auto.
        + exfalso. rewrite E in Hk. destruct Hk as (K1 & _ & K3). simpl in K1, K3. destruct (Hord (eq_sym K3)) as [_ H]. congruence.
        + exfalso. unfold is_terminal in Ht. rewrite E in Ht. discriminate.
    Qed.

    (** the trees below the root *)
    Lemma root_derives cat cat2 t more more2 form form2 r r2 :
      tree_of ch (complete_gamma gamma_mean text) (Node cat (Node cat2 (t :: more) form r :: more2) form2 r2) ->
      exists m, In m (find_argument_counts (grammar_rules rules) "s") /\
        derives scan_mean re_match (in_grammar rules) text
          (mkCons "s" (map (fun j => append "P" (repr_Z (Z.of_nat j))) (seq 1 m)) PRelation false false) 0 (String.length text) t.
    Proof.
      intros H. inversion H as [|? sts ts _ HC HF]; subst. simpl in HC.
      inversion HC as [|? ? ? j ? d sts' Hat Hk Hst _ HC']; subst. inversion HC'; subst.
      inversion HF as [|? ? ? ? Hd HF']; subst. inversion HF'; subst. clear HF HF' HC HC' H.
      destruct (Hch _ _ Hat) as [Hend Ho]. destruct Hk as (K1 & K2 & K3). simpl in K1, K2, K3.
      destruct (origin_cases _ Ho) as [E|[Hg|[(m & E & Hm)|(c & w & m & E & Hsc & _)]]].
      - rewrite E in K1. discriminate.
      - exfalso. apply in_grammar_proper in Hg as [[Hn _] _]. contradiction.
      - exists m. split; [exact Hm|]. inversion Hd as [|? sts ts Ht HC HF]; subst. rewrite E in HC. simpl in HC.
        inversion HC as [|? ? ? j ? x sts' Hat' Hk' Hst' _ HC']; subst. inversion HC'; subst.
        inversion HF as [|? ? ? ? Hx HF']; subst. destruct (Hch _ _ Hat') as [Hend' Ho'].
        match type of Hk' with same_kind _ ?c => assert (Ho2 : ordinary c) by (intros _; split; discriminate) end.
        pose proof (tree_derives _ _ Hx Ho' _ Hk' Ho2) as D. rewrite Hend', Hst', Hst in D. simpl in D. rewrite <- Hend. exact D.
      - exfalso. rewrite E in K3. simpl in K3. destruct Hsc as [(T & _)|(T & _)]; congruence.
    Qed.
  End Trees.

  Theorem parse_sound rules k n text roots ch :
    Forall proper_rule rules ->
    build_chart n (after delta_mean (Datatypes.S k) (grammar_rules rules)) text = Ok ch ->
    extract_tree_roots gamma_mean n ch = Ok roots ->
    forall t, In t roots ->
    exists m, In m (find_argument_counts (grammar_rules rules) "s") /\
      derives scan_mean re_match (in_grammar rules) text
        (mkCons "s" (map (fun j => append "P" (repr_Z (Z.of_nat j))) (seq 1 m)) PRelation false false) 0 (String.length text) t.
  Proof.
    intros Hp Hb He t Ht. pose proof (build_origin _ _ _ _ Hb) as [Htext Ho]. pose proof (build_completed_ok _ _ _ _ Hb) as [_ Hc].
    destruct (extract_spec gamma_mean _ _ _ He t Ht) as (cat & cat2 & more & more2 & form & form2 & r & r2 & HT).
    rewrite Htext in HT. eapply root_derives; [exact Hp| |exact HT].
    intros e s Hs. destruct (Hc _ _ Hs) as [Hin _]. apply Ho. exact Hin.
  Qed.

  (** ** what a derivation spells *)
  Lemma lower_ascii_idem c : lower_ascii (lower_ascii c) = lower_ascii c.
  Proof. destruct c as [[] [] [] [] [] [] [] []]; reflexivity. Qed.
  Lemma lower_idem s : lower (lower s) = lower s.
  Proof. induction s; simpl; [reflexivity|]. now rewrite lower_ascii_idem, IHs. Qed.
  Lemma lower_append a : forall b, lower (append a b) = append (lower a) (lower b).
  Proof. induction a; intros b; simpl; [reflexivity|]. now rewrite IHa. Qed.

  Definition re_ok : Prop := forall p s m, re_match p s = Ok (Some m) -> exists rest, s = append m rest.

  Lemma take_take_drop m n s : take (m + n) s = append (take m s) (take n (drop m s)).
  Proof. revert s. induction m; intros [|c s]; simpl; try reflexivity; [destruct n; reflexivity|]. now rewrite IHm. Qed.

  Lemma derives_spells G text : re_ok ->
    (forall c i j t, derives scan_mean re_match G text c i j t ->
       i <= j /\ (i <= String.length text -> j <= String.length text) /\ lower (spell t) = lower (take (j - i) (drop i text))) /\
    (forall cs i j ts, derives_all scan_mean re_match G text cs i j ts ->
       i <= j /\ (i <= String.length text -> j <= String.length text) /\
       lower (fold_right (fun t s => append (spell t) s) "" ts) = lower (take (j - i) (drop i text))).
  Proof.
    intros Hre. apply derives_both.
    - intros c i w r _ Hs Hl _. split; [lia|]. split.
      + intros Hi. unfold stands_at in Hs. pose proof (take_short (String.length w) (drop i text)) as H. rewrite Hs, drop_length in H. lia.
      + replace (i + String.length w - i) with (String.length w) by lia. rewrite Hs. simpl. rewrite <- Hl. apply lower_idem.
    - intros c i m w r _ Hm (rest & ->) Hne _. destruct (Hre _ _ _ Hm) as (rest2 & E). split; [lia|]. split.
      + intros Hi. pose proof (drop_length i text) as H. rewrite E, !append_length in H. lia.
      + replace (i + String.length w - i) with (String.length w) by lia. rewrite E, append_assoc, take_append. reflexivity.
    - intros c i j r ts _ _ _ (H1 & H2 & H3). split; [exact H1|]. split; [exact H2|]. rewrite <- H3. simpl. destruct ts; reflexivity.
    - intros i. split; [lia|]. split; [auto|]. rewrite Nat.sub_diag. reflexivity.
    - intros c cs i j k t ts _ (H1 & H2 & H3) _ (H4 & H5 & H6). split; [lia|]. split; [auto|]. simpl.
      rewrite lower_append, H3, H6, <- lower_append. f_equal.
      replace (k - i) with ((j - i) + (k - j)) by lia. rewrite take_take_drop, drop_drop.
      now replace (i + (j - i)) with j by lia.
  Qed.
End Sound.
