(** * Termination of chart building and tree extraction *)

From Coq Require Import ZArith String Ascii List Bool Arith Lia.
From Verif Require Import Py Effects Grammar Earley ParserSpec GrammarProofs EarleyProofs EarleyProofs2 EarleyProofs3 EarleyProofs4.
Import ListNotations.
Local Open Scope string_scope.
Local Open Scope list_scope.
Local Open Scope outcome_scope.

Section Terminates.
  Context {S : Type}.
  Variable scan_mean : option string -> S.
  Variable delta_mean gamma_mean : S.
  Variable re_match : string -> string -> outcome (option string).

  Notation rule := (grule S).
  Notation cstate := (@cstate S).
  Notation chart := (@chart S).
  Notation step := (step scan_mean re_match).
  Notation build_chart := (build_chart scan_mean gamma_mean re_match).
  Notation scans := (scans scan_mean re_match).
  Notation gamma := (gamma_rule gamma_mean).

  (** the regular expressions of the rules compile *)
  Definition patterns_ok (rules : rule -> Prop) : Prop :=
    forall r c, rules r -> In c (g_cons r) -> k_type c = PRegExp -> forall s, exists m, re_match (k_pred c) s = Ok m.

  (** ** more fuel does not matter *)
  Lemma process_position_mono n : forall ix i j ch,
    process_position scan_mean re_match n ix i j ch <> OutOfFuel -> forall m, n <= m ->
    process_position scan_mean re_match m ix i j ch = process_position scan_mean re_match n ix i j ch.
  Proof.
    induction n as [|n IH]; intros ix i j ch H m Hm; [simpl in H; congruence|].
    destruct m as [|m]; [lia|]. simpl in *. destruct (nth_error (states_at ch i) j) as [s|]; [|reflexivity].
    destruct (step ix i ch s) as [ch1| |]; simpl in *; try reflexivity. apply IH; [exact H|lia].
  Qed.
  Lemma process_positions_mono n ix is : forall ch,
    process_positions scan_mean re_match n ix is ch <> OutOfFuel -> forall m, n <= m ->
    process_positions scan_mean re_match m ix is ch = process_positions scan_mean re_match n ix is ch.
  Proof.
    induction is as [|i is IH]; intros ch H m Hm; simpl in *; [reflexivity|].
    assert (H1 : process_position scan_mean re_match n ix i 0 ch <> OutOfFuel).
    { intros E. rewrite E in H. simpl in H. congruence. }
    rewrite (process_position_mono _ _ _ _ _ H1 m Hm). destruct (process_position scan_mean re_match n ix i 0 ch); simpl in *; try reflexivity.
    now apply IH.
  Qed.
  Lemma build_chart_mono n ix text : build_chart n ix text <> OutOfFuel -> forall m, n <= m -> build_chart m ix text = build_chart n ix text.
  Proof.
    unfold Earley.build_chart. destruct (enqueue _ _ _); simpl; try reflexivity. apply process_positions_mono.
  Qed.

  (** ** the states that can occur *)
  Section Universe.
    Variable ix : gindex S.
    Variable text : string.
    Hypothesis Hre : re_ok re_match.
    Definition used (r : rule) : Prop := exists c n, In r (find_rules ix c n).
    Hypothesis Htotal : patterns_ok used.

    Definition index_rules : list rule := gamma :: flat_map (fun p => flat_map snd (snd p)) ix.
    Lemma counts_get_in (l : list (nat * list rule)) n rs : counts_get n l = Some rs -> In (n, rs) l.
    Proof.
      induction l as [|[m rs'] l IH]; simpl; [discriminate|]. destruct (Nat.eqb_spec n m) as [->|]; [intros [= ->]|]; auto.
    Qed.
    Lemma index_get_in c l : forall jx : gindex S, index_get c jx = Some l -> In (c, l) jx.
    Proof.
      induction jx as [|[d l'] jx IH]; simpl; [discriminate|]. destruct (String.eqb_spec c d) as [->|]; [intros [= ->]|]; auto.
    Qed.
    Lemma find_rules_index c n r : In r (find_rules ix c n) -> In r index_rules.
    Proof.
      unfold find_rules, index_rules. destruct (index_get c ix) as [l|] eqn:E1; [|contradiction].
      destruct (counts_get n l) as [rs|] eqn:E2; [|contradiction]. intros H. right.
      apply in_flat_map. exists (c, l). split; [now apply index_get_in|]. apply in_flat_map. exists (n, rs). split; [now apply counts_get_in|exact H].
    Qed.

    Definition words (i : nat) (c : constituent) : list string :=
      k_pred c :: map (fun n => take n (drop i text)) (seq 0 (String.length text + 1)).
    Definition scan_rules : list rule :=
      flat_map (fun c => flat_map (fun i => flat_map (fun w => [scanned_rule c w (scan_mean None); scanned_rule c w (scan_mean (Some w))])
        (words i c)) (seq 0 (String.length text + 1))) (flat_map g_cons index_rules).
    Definition possible_rules : list rule := index_rules ++ scan_rules.
    Definition possible : list cstate :=
      flat_map (fun r => flat_map (fun d => flat_map (fun b => map (fun e => mkState r d b e) (seq 0 (String.length text + 1)))
        (seq 0 (String.length text + 1))) (seq 0 (length (g_cons r) + 2))) possible_rules.

    Record bounded (s : cstate) : Prop := {
      bounded_rule : In (s_rule s) possible_rules;
      bounded_open : forall c, next_cons s = Some c -> s_rule s = gamma \/ used (s_rule s);
      bounded_dot : 1 <= s_dot s <= length (g_cons (s_rule s)) + 1;
      bounded_span : s_start s <= s_end s <= String.length text
    }.
    Lemma open_index r : r = gamma \/ used r -> In r index_rules.
    Proof. intros [->|(c & n & H)]; [left; reflexivity|now apply find_rules_index in H]. Qed.
    Lemma bounded_possible s : bounded s -> In s possible.
    Proof.
      intros [H1 _ H2 H3]. destruct s as [r d b e]. simpl in *. unfold possible. apply in_flat_map. exists r. split; [exact H1|].
      apply in_flat_map. exists d. split; [apply in_seq; lia|]. apply in_flat_map. exists b. split; [apply in_seq; lia|].
      apply in_map_iff. exists e. split; [reflexivity|]. apply in_seq. lia.
    Qed.

    Lemma scans_fits i c w m : scans text i c w m -> i <= String.length text -> i + String.length w <= String.length text.
    Proof.
      intros [(_ & -> & _ & H)|(_ & _ & word & n & H & -> & Hn)] Hi.
      - assert (E : String.length (lower (take (String.length (k_pred c)) (drop i text))) = String.length (k_pred c)) by now rewrite H.
        rewrite lower_length in E. pose proof (take_short (String.length (k_pred c)) (drop i text)) as H1. rewrite drop_length in H1. lia.
      - destruct (Hre _ _ _ H) as (rest & E). pose proof (drop_length i text) as Hd. rewrite E, append_length in Hd.
        rewrite take_length_eq by lia. lia.
    Qed.
    Lemma take_prefix n a b : n <= String.length a -> take n (append a b) = take n a.
    Proof. revert a. induction n; intros [|c a] H; simpl in *; try reflexivity; try lia. f_equal. apply IHn. lia. Qed.
    Lemma scans_rule i c w m : scans text i c w m -> i < String.length text -> In c (flat_map g_cons index_rules) ->
      In (scanned_rule c w m) scan_rules.
    Proof.
      intros Hs Hi Hc. unfold scan_rules. apply in_flat_map. exists c. split; [exact Hc|].
      apply in_flat_map. exists i. split; [apply in_seq; lia|]. apply in_flat_map. exists w. split.
      - destruct Hs as [(_ & -> & _)|(_ & _ & word & n & H & -> & Hn)]; [left; reflexivity|]. right.
        apply in_map_iff. exists n. destruct (Hre _ _ _ H) as (rest & E). rewrite E. split; [apply take_prefix; lia|].
        apply in_seq. pose proof (drop_length i text) as Hd. rewrite E, append_length in Hd. lia.
      - destruct Hs as [(_ & _ & -> & _)|(_ & -> & _)]; [left|right; left]; reflexivity.
    Qed.

    Lemma bounded_pred : forall s c r, bounded s -> next_cons s = Some c -> is_complete s = false ->
      In r (find_rules ix (k_pred c) (length (k_args c))) -> bounded (mkState r 1 (s_end s) (s_end s)).
    Proof.
      intros s c r [_ _ _ H] _ _ Hr. assert (Hu : used r) by (eexists; eexists; exact Hr). apply find_rules_index in Hr.
      split; cbn [s_rule s_dot s_start s_end]; try lia; [unfold possible_rules; apply in_or_app; auto|auto].
    Qed.
    Lemma bounded_scan : forall s c w m, bounded s -> next_cons s = Some c -> scans text (s_end s) c w m ->
      s_end s < String.length text -> bounded (scanned_state s c w m).
    Proof.
      intros s c w m [_ H1 _ H2] Hn Hs Hlt. pose proof (scans_fits _ _ _ _ Hs) as Hf.
      split; cbn [scanned_state s_rule s_dot s_start s_end scanned_rule new_rule g_cons length]; try lia.
      - unfold possible_rules. apply in_or_app. right. eapply scans_rule; [exact Hs|exact Hlt|]. apply in_flat_map. exists (s_rule s). split; [apply open_index; eapply H1; eassumption|].
        eapply nth_error_In. exact Hn.
      - discriminate.
    Qed.
    Lemma bounded_adv : forall w c s, bounded w -> bounded s -> is_complete s = true -> s_end w = s_start s -> next_cons w = Some c ->
      k_pred c = k_pred (g_ante (s_rule s)) -> k_type c = k_type (g_ante (s_rule s)) -> bounded (advanced_state s w).
    Proof.
      intros w c s [W1 W2 W3 W4] [S1 S2 S3 S4] _ E Hn _ _.
      assert (Hlt : s_dot w - 1 < length (g_cons (s_rule w))) by (apply nth_error_Some; unfold next_cons in Hn; congruence).
      split; simpl; try lia; [exact W1|]. intros _ _. eapply W2. eassumption.
    Qed.
    Lemma bounded_gamma : bounded (incomplete_gamma gamma_mean).
    Proof. split; cbn [incomplete_gamma s_rule s_dot s_start s_end gamma_rule new_rule g_cons length]; try lia; [unfold possible_rules; apply in_or_app; left; left; reflexivity|intros; left; reflexivity]. Qed.

    Definition tidy (ch : chart) : Prop :=
      all_states text bounded ch /\ length (ch_states ch) = String.length text + 1 /\ forall p, distinct (states_at ch p).

    Lemma tidy_few ch p : tidy ch -> length (states_at ch p) <= length possible.
    Proof.
      intros ((_ & Ha) & _ & Hd). apply NoDup_incl_length; [apply distinct_NoDup; apply Hd|].
      intros s Hs. apply bounded_possible. now apply (Ha p).
    Qed.
    Lemma step_tidy i ch s ch' : tidy ch -> In s (states_at ch i) -> step ix i ch s = Ok ch' -> tidy ch'.
    Proof.
      intros (Ha & Hl & Hd) Hs H. split; [|split].
      - eapply step_all_states; [apply bounded_pred|apply bounded_scan|apply bounded_adv|exact Ha|exact Hs|exact H].
      - apply step_grows in H. now rewrite (ext_len _ _ _ H).
      - apply step_successors in H as (l & _ & H). eapply enqueue_all_distinct; [|exact H].
        intros p. destruct (is_complete s); apply Hd.
    Qed.

    Lemma complete_loop_in_range (waiting : list cstate) s : forall ch, s_end s < length (ch_states ch) ->
      complete_loop waiting s ch <> Exn IndexErr.
    Proof.
      induction waiting as [|w waiting IH]; intros ch H; simpl; [discriminate|].
      destruct (next_cons w) as [c|]; [|now apply IH].
      match goal with |- (if ?b then _ else _) <> _ => destruct b end; [|now apply IH].
      match goal with |- context [enqueue ?x ?p ch] => destruct (enqueue_returns x p ch H) as (ch1 & E) end. rewrite E. simpl.
      match goal with |- (if ?b then _ else _) <> _ => destruct b end; [discriminate|].
      apply IH. apply enqueue_ok in E as (_ & _ & _ & E & _). now rewrite E.
    Qed.

    (** a step returns, or finds the loop disturbed by an empty constituent *)
    Lemma step_outcome i ch s : tidy ch -> In s (states_at ch i) ->
      (exists ch', step ix i ch s = Ok ch') \/
      (is_complete s = true /\ s_start s = s_end s /\ step ix i ch s = Exn RuntimeErr).
    Proof.
      intros ((Ht & Ha) & Hl & Hd) Hs. destruct (Ha _ _ Hs) as [He Hb]. pose proof (bounded_span _ Hb) as Hspan.
      unfold Earley.step. destruct (is_complete s) eqn:Ec.
      - unfold complete. destruct (complete_loop_outcome (states_at ch (s_start s)) s (index_completed s ch)) as [H|[H|[H1 H]]]; auto.
        exfalso. revert H. apply complete_loop_in_range. simpl. lia.
      - left. assert (Hn : exists c, next_cons s = Some c).
        { unfold next_cons. destruct (nth_error _ _) as [c|] eqn:E; [eauto|]. exfalso. apply nth_error_None in E.
          unfold is_complete in Ec. apply Nat.leb_gt in Ec. pose proof (bounded_dot _ Hb). lia. }
        destruct Hn as (c & Hn). unfold predict. rewrite Hn, predict_loop_all.
        destruct (enqueue_all_returns (map (fun r => mkState r 1 (s_end s) (s_end s)) (find_rules ix (k_pred c) (length (k_args c)))) ch) as (ch1 & E1).
        { intros x Hx. apply in_map_iff in Hx as (r & <- & _). simpl. lia. }
        rewrite E1. simpl. destruct (Nat.ltb_spec i (String.length (ch_text ch))) as [Hlt|Hge]; [|eauto].
        rewrite (scan_all _ _ _ _ _ Hn).
        assert (Hl1 : length (ch_states ch1) = String.length text + 1).
        { rewrite <- Hl. eapply ext_len. eapply (enqueue_all_ext 0); [|exact E1]. intros; lia. }
        assert (Ht1 : ch_text ch1 = text).
        { rewrite <- Ht. eapply ext_text. eapply (enqueue_all_ext 0); [|exact E1]. intros; lia. }
        assert (Hsc : exists l2, scanned scan_mean re_match (ch_text ch1) s c = Ok l2).
        { unfold scanned. destruct (k_type c) eqn:Ek; [eauto|eauto|].
          assert (Hm : exists m, re_match (k_pred c) (drop (s_end s) (ch_text ch1)) = Ok m).
          { pose proof (nth_error_In _ _ Hn) as Hin. destruct (bounded_open _ Hb c Hn) as [Eg|Hu]; [|now apply (Htotal (s_rule s))].
            rewrite Eg in Hin. destruct Hin as [<-|[]]. discriminate Ek. }
          destruct Hm as (m & ->). simpl. eauto. }
        destruct Hsc as (l2 & E2). rewrite E2. simpl. apply enqueue_all_returns. intros x Hx.
        apply (scanned_spec _ _ _ _ _ _ _ E2) in Hx as (w & m & Hw & ->). simpl. rewrite Ht1 in Hw.
        pose proof (scans_fits _ _ _ _ Hw). lia.
    Qed.

    Lemma process_position_outcome n : forall i j ch, tidy ch -> j <= length (states_at ch i) -> length possible < n + j ->
      (exists ch', process_position scan_mean re_match n ix i j ch = Ok ch' /\ tidy ch') \/
      process_position scan_mean re_match n ix i j ch = Exn RuntimeErr.
    Proof.
      induction n as [|n IH]; intros i j ch Ht Hj Hn.
      - exfalso. pose proof (tidy_few ch i Ht). lia.
      - simpl. destruct (nth_error (states_at ch i) j) as [s|] eqn:E; [|eauto].
        pose proof (nth_error_In _ _ E) as Hs. destruct (step_outcome i ch s Ht Hs) as [(ch1 & E1)|(_ & _ & ->)]; [|right; reflexivity].
        rewrite E1. simpl. apply IH; [eapply step_tidy; eassumption| |lia].
        assert (Hlt : j < length (states_at ch i)) by (apply nth_error_Some; congruence).
        apply step_grows in E1. destruct (ext_grow _ _ _ E1 i) as (more & ->). rewrite app_length. lia.
    Qed.
    Lemma process_positions_outcome n is : length possible < n -> forall ch, tidy ch ->
      (exists ch', process_positions scan_mean re_match n ix is ch = Ok ch' /\ tidy ch') \/
      process_positions scan_mean re_match n ix is ch = Exn RuntimeErr.
    Proof.
      intros Hn. induction is as [|i is IH]; intros ch Ht; simpl; [eauto|].
      destruct (process_position_outcome n i 0 ch Ht) as [(ch1 & -> & Ht1)| ->]; [lia|lia| |right; reflexivity].
      simpl. now apply IH.
    Qed.
    Lemma start_tidy ch : enqueue (incomplete_gamma gamma_mean) 0 (empty_chart text) = Ok ch -> tidy ch.
    Proof.
      intros H0. pose proof (start_chart gamma_mean text ch H0) as (S1 & S2 & S3 & S4 & S5). split; [|split].
      - split; [exact S3|]. intros [|p] s Hs; [rewrite S1 in Hs; destruct Hs as [<-|[]]; split; [reflexivity|apply bounded_gamma]|].
        rewrite S2 in Hs by lia. contradiction.
      - exact S5.
      - intros [|p]; [rewrite S1|rewrite S2 by lia; constructor].
        change [incomplete_gamma gamma_mean] with ([] ++ [incomplete_gamma gamma_mean]). constructor; [constructor|reflexivity].
    Qed.

    (** enough fuel for the chart *)
    Theorem build_chart_outcome n : length possible < n ->
      (exists ch, build_chart n ix text = Ok ch /\ tidy ch) \/ build_chart n ix text = Exn RuntimeErr.
    Proof.
      intros Hn. unfold Earley.build_chart.
      destruct (enqueue_returns (incomplete_gamma gamma_mean) 0 (empty_chart text)) as (ch0 & E).
      { simpl. rewrite repeat_length. lia. }
      rewrite E. simpl. apply process_positions_outcome; [exact Hn|]. now apply start_tidy.
    Qed.

    (** without empty constituents the loop is never disturbed *)
    Hypothesis Hsolid : forall c n r, In r (find_rules ix c n) -> solid r.
    Theorem build_chart_returns n : length possible < n -> exists ch, build_chart n ix text = Ok ch /\ tidy ch.
    Proof.
      intros Hn. unfold Earley.build_chart.
      destruct (enqueue_returns (incomplete_gamma gamma_mean) 0 (empty_chart text)) as (ch0 & E).
      { simpl. rewrite repeat_length. lia. }
      rewrite E. simpl. pose proof (start_tidy _ E) as Ht.
      assert (Hs : all_states text sane ch0).
      { pose proof (start_chart gamma_mean text ch0 E) as (S1 & S2 & S3 & _). split; [exact S3|].
        intros [|p] s Hs; [rewrite S1 in Hs; destruct Hs as [<-|[]]; split; [reflexivity|apply sane_gamma]|].
        rewrite S2 in Hs by lia. contradiction. }
      clear E. assert (HP : forall m i j ch, tidy ch -> all_states text sane ch -> j <= length (states_at ch i) -> length possible < m + j ->
        exists ch', process_position scan_mean re_match m ix i j ch = Ok ch' /\ tidy ch' /\ all_states text sane ch').
      { clear -Hre Htotal Hsolid. induction m as [|m IH]; intros i j ch Ht Hs Hj Hm.
        - exfalso. pose proof (tidy_few ch i Ht). lia.
        - simpl. destruct (nth_error (states_at ch i) j) as [s|] eqn:E; [|eauto].
          pose proof (nth_error_In _ _ E) as Hin. destruct (step_outcome i ch s Ht Hin) as [(ch1 & E1)|(Hc & He & _)].
          + rewrite E1. simpl. apply IH; [eapply step_tidy; eassumption|eapply step_sane; eassumption| |lia].
            assert (Hlt : j < length (states_at ch i)) by (apply nth_error_Some; congruence).
            apply step_grows in E1. destruct (ext_grow _ _ _ E1 i) as (more & ->). rewrite app_length. lia.
          + exfalso. destruct Hs as [_ Hs]. destruct (Hs _ _ Hin) as [_ Hsn]. pose proof (complete_progress _ Hsn Hc). lia. }
      generalize (seq 0 (String.length text + 1)). intros is. revert ch0 Ht Hs.
      induction is as [|i is IH]; intros ch0 Ht Hs; simpl; [eauto|].
      destruct (HP n i 0 ch0 Ht Hs) as (ch1 & -> & Ht1 & Hs1); [lia|lia|]. simpl. now apply IH.
    Qed.
  End Universe.

  (** ** extraction *)
  Lemma omap_ok {A B} (f : A -> outcome B) l : (forall x, In x l -> exists y, f x = Ok y) -> exists ys, omap f l = Ok ys.
  Proof.
    induction l as [|x l IH]; intros H; simpl; [eauto|].
    destruct (H x) as (y & ->); [left; auto|]. simpl. destruct IH as (ys & ->); [intros z Hz; apply H; right; auto|]. simpl. eauto.
  Qed.
  Lemma omap_ext {A B} (f g : A -> outcome B) l : (forall x, In x l -> f x = g x) -> omap f l = omap g l.
  Proof.
    induction l as [|x l IH]; intros H; simpl; [reflexivity|]. rewrite (H x) by (left; auto). rewrite IH; [reflexivity|].
    intros z Hz. apply H. right. auto.
  Qed.

  Lemma omap_mono {A B} (f g : A -> outcome B) l : (forall x, In x l -> f x <> OutOfFuel -> g x = f x) ->
    omap f l <> OutOfFuel -> omap g l = omap f l.
  Proof.
    induction l as [|x l IH]; intros H Hn; simpl in *; [reflexivity|].
    assert (Hx : f x <> OutOfFuel) by (intros E; rewrite E in Hn; simpl in Hn; congruence).
    rewrite (H x (or_introl eq_refl) Hx). destruct (f x) as [y| |]; simpl in *; try reflexivity.
    assert (Hl : omap f l <> OutOfFuel) by (intros E; rewrite E in Hn; simpl in Hn; congruence).
    rewrite IH; auto.
  Qed.
  Lemma create_trees_mono (ch : chart) n : forall s m, create_trees n ch s <> OutOfFuel -> n <= m -> create_trees m ch s = create_trees n ch s.
  Proof.
    induction n as [|n IH]; intros s m H Hm; [simpl in H; congruence|]. destruct m as [|m]; [lia|]. simpl in *.
    destruct (is_terminal s) as [[]| |]; simpl in *; try reflexivity.
    destruct (find_sequences _ _ _ _) as [seqs| |]; simpl in *; try reflexivity.
    match goal with |- context [omap ?f seqs] => set (f1 := f) end.
    match type of H with context [omap ?f seqs] => set (f2 := f) in * end.
    assert (HE : omap f1 seqs = omap f2 seqs).
    { apply omap_mono.
      - intros sts _ Hn. unfold f1, f2 in *.
        assert (Ho : omap (create_trees n ch) sts <> OutOfFuel) by (intros E; rewrite E in Hn; simpl in Hn; congruence).
        rewrite (omap_mono (create_trees n ch) (create_trees m ch) sts); [reflexivity| |exact Ho].
        intros x _ Hx. apply IH; [exact Hx|lia].
      - intros E. rewrite E in H. simpl in H. congruence. }
    rewrite HE. reflexivity.
  Qed.

  Section Extraction.
    Variable ch : chart.
    Variable good : cstate -> Prop.
    Variable rank : cstate -> nat.
    (** all completed states *)
    Hypothesis Hgood : forall e s, completed_at ch e s -> good s /\ s_end s = e.
    Hypothesis Hspan : forall s, good s -> s_start s < s_end s.
    Hypothesis Hcons : forall s, good s -> g_cons (s_rule s) <> [].
    Hypothesis Hdict : forall s, good s -> 0 < s_start s -> exists l, completed_get (s_start s) (ch_completed ch) = Some l.
    Hypothesis Hdict2 : forall s, good s -> exists l, completed_get (s_end s) (ch_completed ch) = Some l.
    (** unit rules lower the rank *)
    Hypothesis Hrank : forall s c x, good s -> is_terminal s = Ok false -> g_cons (s_rule s) = [c] ->
      completed_at ch (s_end s) x -> same_kind (g_ante (s_rule x)) c -> s_start x = s_start s -> rank x < rank s.

    Lemma is_terminal_ok (s : cstate) : g_cons (s_rule s) <> [] -> exists b, is_terminal s = Ok b.
    Proof. unfold is_terminal. destruct (g_cons (s_rule s)) as [|c cs]; [congruence|]. destruct (k_args c); eauto. Qed.

    Lemma find_sequences_ok parent k : k < length (g_cons (s_rule parent)) -> forall e,
      (0 < e -> exists l, completed_get e (ch_completed ch) = Some l) ->
      exists seqs, find_sequences ch parent k e = Ok seqs.
    Proof.
      induction k as [|k IH]; intros Hk e He; cbn [find_sequences]; destruct (Nat.eqb_spec e 0) as [->|Hn]; eauto;
        destruct (He ltac:(lia)) as (l & El); rewrite El.
      - match goal with |- context [omap ?f l] => destruct (omap_ok f l) as (found & ->) end; [|simpl; eauto].
        intros s Hs. destruct (nth_error (g_cons (s_rule parent)) 0) as [c|] eqn:En; [|apply nth_error_None in En; lia]. destruct (cons_equals (g_ante (s_rule s)) c); eauto.
      - match goal with |- context [omap ?f l] => destruct (omap_ok f l) as (found & ->) end; [|simpl; eauto].
        intros s Hs. destruct (nth_error (g_cons (s_rule parent)) (Datatypes.S k)) as [c|] eqn:En; [|apply nth_error_None in En; lia].
        destruct (cons_equals (g_ante (s_rule s)) c); [|eauto]. destruct (IH ltac:(lia) (s_start s)) as (seqs & ->); [|simpl; eauto].
        destruct (Hgood e s) as [Hg _]; [exists l; auto|]. apply Hdict. exact Hg.
    Qed.

    Lemma chain_parts cs i j sts : chain ch cs i j sts -> i <= j /\ forall s, In s sts -> good s /\ i <= s_start s /\ s_end s <= j.
    Proof.
      induction 1 as [i|c cs i j k s sts Hat Hk Hst Hj HC [IH1 IH2]]; [split; [lia|intros s []]|].
      destruct (Hgood _ _ Hat) as [Hg He]. pose proof (Hspan _ Hg). split; [lia|].
      intros x [<-|Hx]; [repeat split; auto; lia|]. destruct (IH2 x Hx) as (A & B & C). repeat split; auto; lia.
    Qed.

    (** a part that spans the whole chain is all of it *)
    Lemma chain_single cs i k sts x : chain ch cs i k sts -> In x sts -> s_start x = i -> s_end x = k ->
      exists c, cs = [c] /\ sts = [x] /\ completed_at ch k x /\ same_kind (g_ante (s_rule x)) c.
    Proof.
      intros HC Hx E1 E2. inversion HC as [|c cs' i' j k' y sts' Hat Hk Hst Hj HC']; subst; [contradiction|].
      destruct (chain_parts _ _ _ _ HC') as [Hjk Hp]. destruct (Hgood _ _ Hat) as [Hgy Hey]. pose proof (Hspan _ Hgy) as Hsy.
      destruct Hx as [<-|Hx].
      - inversion HC' as [i'|c' cs'' i' j' k' z sts'' Hat' _ Hst' _ HC'']; subst.
        + exists c. split; [reflexivity|]. split; [reflexivity|]. split; assumption.
        + exfalso. destruct (chain_parts _ _ _ _ HC'') as [Hjk' _]. destruct (Hgood _ _ Hat') as [Hgz Hez]. pose proof (Hspan _ Hgz). lia.
      - exfalso. destruct (Hp x Hx) as (_ & Hb & _). lia.
    Qed.

    Lemma max_fuel {A B} (f : nat -> A -> outcome B) (l : list A) :
      (forall n m x, f n x <> OutOfFuel -> n <= m -> f m x = f n x) ->
      (forall x, In x l -> exists n y, f n x = Ok y) -> exists n, forall x, In x l -> exists y, f n x = Ok y.
    Proof.
      intros Hm. induction l as [|x l IH]; intros H; [exists 0; intros x []|].
      destruct (H x (or_introl eq_refl)) as (n1 & y & E1). destruct IH as (n2 & H2); [intros z Hz; apply H; right; auto|].
      exists (Nat.max n1 n2). intros z [<-|Hz].
      - exists y. rewrite <- E1. apply Hm; [congruence|lia].
      - destruct (H2 z Hz) as (y' & E). exists y'. rewrite <- E. apply Hm; [congruence|lia].
    Qed.

    Lemma create_trees_ok : forall s, good s -> exists n ts, create_trees n ch s = Ok ts.
    Proof.
      assert (HW : forall a b s, good s -> s_end s - s_start s <= a -> rank s <= b -> exists n ts, create_trees n ch s = Ok ts).
      { induction a as [|a IHa]; [intros b s Hg Ha _; pose proof (Hspan _ Hg); lia|].
        assert (HB : forall b s, good s -> s_end s - s_start s <= Datatypes.S a -> rank s < b -> exists n ts, create_trees n ch s = Ok ts).
        { induction b as [|b IHb]; [intros; lia|]. intros s Hg Ha Hr.
          destruct (is_terminal_ok s (Hcons _ Hg)) as ([] & Et).
          - exists 1. simpl. rewrite Et. simpl. destruct (g_cons (s_rule s)) as [|c cs] eqn:Ec; [exfalso; revert Ec; apply Hcons; exact Hg|eauto].
          - assert (Hne : length (g_cons (s_rule s)) - 1 < length (g_cons (s_rule s))).
            { pose proof (Hcons _ Hg). destruct (g_cons (s_rule s)); [congruence|simpl; lia]. }
            destruct (find_sequences_ok s _ Hne (s_end s) (fun _ => Hdict2 s Hg)) as (seqs & Es).
            assert (HS := fun sts => find_sequences_spec _ _ _ _ _ Es Hne sts).
            replace (length (g_cons (s_rule s)) - 1 + 1) with (length (g_cons (s_rule s))) in HS by lia. rewrite firstn_all in HS.
            assert (Hch : forall sts, In sts seqs -> forall x, In x sts -> exists n ts, create_trees n ch x = Ok ts).
            { intros sts Hsts x Hx. apply HS in Hsts. destruct (chain_parts _ _ _ _ Hsts) as [_ Hp]. destruct (Hp x Hx) as (Hgx & B1 & B2).
              destruct (Nat.le_gt_cases (s_end x - s_start x) a) as [Hle|Hgt]; [eapply IHa; [exact Hgx|exact Hle|apply le_n]|].
              pose proof (Hspan _ Hgx) as Hsx. pose proof (Hspan _ Hg) as Hss.
              assert (E1 : s_start x = s_start s) by lia. assert (E2 : s_end x = s_end s) by lia.
              assert (Hone : exists c, g_cons (s_rule s) = [c] /\ sts = [x] /\ completed_at ch (s_end s) x /\ same_kind (g_ante (s_rule x)) c).
              { eapply chain_single; eassumption. }
              destruct Hone as (c & Ec & -> & Hat & Hk).
              apply IHb; [exact Hgx|lia|]. pose proof (Hrank s c x Hg Et Ec Hat Hk E1). lia. }
            assert (Hper : forall sts, In sts seqs -> exists n per, omap (create_trees n ch) sts = Ok per).
            { intros sts Hsts. destruct (max_fuel (fun n x => create_trees n ch x) sts) as (n & Hn).
              - intros n m x H Hm. apply create_trees_mono; assumption.
              - apply Hch. exact Hsts.
              - exists n. apply omap_ok. exact Hn. }
            destruct (max_fuel (fun n sts => omap (create_trees n ch) sts) seqs) as (n & Hn).
            { intros n m sts H Hm. apply omap_mono; [|exact H]. intros x _ Hx. now apply create_trees_mono. }
            { exact Hper. }
            exists (Datatypes.S n). simpl. rewrite Et. simpl. rewrite Es. simpl.
            match goal with |- context [omap ?f seqs] => destruct (omap_ok f seqs) as (tss & ->) end; [|simpl; eauto].
            intros sts Hsts. destruct (Hn sts Hsts) as (per & ->). simpl. eauto. }
        intros b s Hg Ha Hr. eapply HB; [exact Hg|exact Ha|]. apply Nat.lt_succ_r. exact Hr. }
      intros s Hg. eapply HW; [exact Hg|apply le_n|apply le_n].
    Qed.
  End Extraction.
End Terminates.
