(** * Completeness: every derivation is found *)

From Coq Require Import ZArith String Ascii List Bool Arith Lia.
From Verif Require Import Py Effects Grammar Earley ParserSpec GrammarProofs EarleyProofs EarleyProofs2 EarleyProofs3.
Import ListNotations.
Local Open Scope string_scope.
Local Open Scope list_scope.
Local Open Scope outcome_scope.

Lemma Forall2_len {A B} (R : A -> B -> Prop) l : forall l', Forall2 R l l' -> length l = length l'.
Proof. induction l; intros l' H; inversion H; subst; simpl; auto. Qed.
Lemma Forall2_skipn {A B} (R : A -> B -> Prop) k : forall l l', Forall2 R l l' -> Forall2 R (skipn k l) (skipn k l').
Proof. induction k; intros l l' H; [exact H|]. destruct H; simpl; [constructor|auto]. Qed.

Section Complete.
  Context {S : Type}.
  Variable scan_mean : option string -> S.
  Variable delta_mean gamma_mean : S.
  Variable re_match : string -> string -> outcome (option string).

  Notation rule := (grule S).
  Notation cstate := (@cstate S).
  Notation chart := (@chart S).
  Notation step := (step scan_mean re_match).
  Notation build_chart := (build_chart scan_mean gamma_mean re_match).
  Notation scans := (scans scan_mean re_match).
  Notation gamma := (gamma_rule gamma_mean).

  (** ** the rules of the index, without empty parts *)
  Definition solid (r : rule) : Prop :=
    g_cons r <> [] /\ forall c, In c (g_cons r) -> k_type c = PWord -> k_pred c <> "".

  Section Closed.
    Variable ix : gindex S.
    Variable text : string.
    Hypothesis Hsolid : forall c n r, In r (find_rules ix c n) -> solid r.

    Record sane (s : cstate) : Prop := {
      sane_dot : 1 <= s_dot s;
      sane_span : s_start s <= s_end s;
      sane_progress : 1 < s_dot s -> s_start s < s_end s;
      sane_rule : solid (s_rule s)
    }.
    Lemma complete_progress (s : cstate) : sane s -> is_complete s = true -> s_start s < s_end s.
    Proof.
      intros [H1 H2 H3 [H4 _]] Hc. apply H3. unfold is_complete in Hc. apply Nat.leb_le in Hc.
      destruct (g_cons (s_rule s)); [congruence|]. simpl in Hc. lia.
    Qed.
    Lemma scans_nonempty i c w m : scans text i c w m -> (k_type c = PWord -> k_pred c <> "") -> w <> "".
    Proof.
      intros [(T & -> & _)|(T & _ & word & n & _ & -> & Hn)] H; auto.
      intros E. assert (String.length (take n word) = 0) by now rewrite E. rewrite take_length_eq in H0; lia.
    Qed.
    Lemma nonempty_length w : w <> "" -> 0 < String.length w.
    Proof. destruct w; [congruence|simpl; lia]. Qed.
    Lemma next_in (s : cstate) c : next_cons s = Some c -> In c (g_cons (s_rule s)).
    Proof. apply nth_error_In. Qed.

    Lemma sane_pred : forall s c r, sane s -> next_cons s = Some c -> is_complete s = false ->
      In r (find_rules ix (k_pred c) (length (k_args c))) -> sane (mkState r 1 (s_end s) (s_end s)).
    Proof. intros s c r _ _ _ Hr. split; simpl; try lia. eapply Hsolid; eassumption. Qed.
    Lemma sane_scan : forall s c w m, sane s -> next_cons s = Some c -> scans text (s_end s) c w m ->
      s_end s < String.length text -> sane (scanned_state s c w m).
    Proof.
      intros s c w m [_ _ _ [_ Hw]] Hn Hs _. assert (Hne : w <> "").
      { eapply scans_nonempty; [exact Hs|]. apply Hw. now apply next_in. }
      pose proof (nonempty_length _ Hne). split; simpl; try lia. split; [discriminate|].
      simpl. intros d [<-|[]] _. exact Hne.
    Qed.
    Lemma sane_adv : forall w c s, sane w -> sane s -> is_complete s = true -> s_end w = s_start s -> next_cons w = Some c ->
      k_pred c = k_pred (g_ante (s_rule s)) -> k_type c = k_type (g_ante (s_rule s)) -> sane (advanced_state s w).
    Proof.
      intros w c s Hw Hs Hc E _ _ _. pose proof (complete_progress _ Hs Hc). destruct Hw as [W1 W2 W3 W4].
      split; simpl; try lia. exact W4.
    Qed.
    Lemma sane_gamma : sane (incomplete_gamma gamma_mean).
    Proof. split; simpl; try lia. split; [discriminate|]. simpl. intros c [<-|[]]. discriminate. Qed.
    Notation all_sane := (all_states text sane).
    Lemma step_sane i ch s ch' : all_sane ch -> In s (states_at ch i) -> step ix i ch s = Ok ch' -> all_sane ch'.
    Proof. apply step_all_states; [apply sane_pred|apply sane_scan|apply sane_adv]. Qed.

    (** ** states that are processed *)
    Definition done (ch : chart) (s : cstate) : Prop :=
      if is_complete s then
        completed_at ch (s_end s) s /\
        forall w, In w (states_at ch (s_start s)) -> waits_for w s = true ->
          state_in (advanced_state s w) (states_at ch (s_end s)) = true
      else forall c, next_cons s = Some c ->
        (forall r, In r (find_rules ix (k_pred c) (length (k_args c))) ->
           state_in (mkState r 1 (s_end s) (s_end s)) (states_at ch (s_end s)) = true) /\
        (s_end s < String.length text -> forall w m, scans text (s_end s) c w m ->
           state_in (scanned_state s c w m) (states_at ch (s_end s + String.length w)) = true).

    Lemma completed_at_mono ch ch' (s0 : cstate) e s :
      ch_completed ch' = ch_completed ch \/ ch_completed ch' = completed_add s0 (ch_completed ch) ->
      completed_at ch e s -> completed_at ch' e s.
    Proof.
      intros [E|E] (l & El & Hl); unfold completed_at; rewrite E; [eauto|]. rewrite completed_get_add, El.
      destruct (Nat.eqb e (s_end s0)); [exists (l ++ [s0]); split; [reflexivity|apply in_or_app; auto]|eauto].
    Qed.

    Lemma done_mono i ch ch' s0 s :
      ext i ch ch' -> ch_completed ch' = ch_completed ch \/ ch_completed ch' = completed_add s0 (ch_completed ch) ->
      sane s -> s_end s <= i -> done ch s -> done ch' s.
    Proof.
      intros HE HC Hs Hi. unfold done. destruct (is_complete s) eqn:Ec.
      - intros [H1 H2]. split; [eapply completed_at_mono; eassumption|].
        intros w Hw Hf. pose proof (complete_progress _ Hs Ec). rewrite (ext_low _ _ _ HE) in Hw by lia.
        eapply ext_state_in; [exact HE|]. auto.
      - intros H c Hc. destruct (H c Hc) as [H1 H2]. split.
        + intros r Hr. eapply ext_state_in; eauto.
        + intros Hl w m Hw. eapply ext_state_in; eauto.
    Qed.

    (** a step at [i] adds states at [i] and later, and processes [s] *)
    Lemma successor_end i ch s l x : s_end s = i -> sane s -> successors scan_mean re_match ix i ch s l -> In x l -> i <= s_end x.
    Proof.
      intros He Hs. unfold successors. destruct (is_complete s).
      - intros -> Hx. apply in_map_iff in Hx as (w & <- & _). simpl. lia.
      - intros (c & l2 & _ & -> & H2) Hx. apply in_app_or in Hx as [Hx|Hx].
        + apply in_map_iff in Hx as (r & <- & _). simpl. lia.
        + destruct (Nat.ltb _ _); [|subst; contradiction]. apply (scanned_spec _ _ _ _ _ _ x H2) in Hx as (w & m & _ & ->). simpl. lia.
    Qed.
    Lemma step_ext i ch s ch' : all_sane ch -> In s (states_at ch i) -> step ix i ch s = Ok ch' ->
      ext i ch ch' /\ done ch' s.
    Proof.
      intros Ha Hin H. destruct Ha as [Ht Ha]. destruct (Ha _ _ Hin) as [He Hs].
      pose proof (step_completed _ _ _ _ _ _ _ H) as HC.
      apply step_successors in H as (l & Hl & H).
      assert (HE : ext i ch ch').
      { apply enqueue_all_ext with (i := i) in H; [|intros x Hx; eapply successor_end; eassumption].
        destruct (is_complete s); [|exact H]. destruct H as [A B C D]. split; auto. }
      split; [exact HE|]. unfold done, successors in *. destruct (is_complete s) eqn:Ec.
      - split.
        + exists (match completed_get (s_end s) (ch_completed ch) with Some l => l ++ [s] | None => [s] end).
          rewrite HC, completed_get_add, Nat.eqb_refl. split; [reflexivity|].
          destruct (completed_get (s_end s) (ch_completed ch)); [apply in_or_app; right|]; left; reflexivity.
        + intros w Hw Hf. pose proof (complete_progress _ Hs Ec). rewrite (ext_low _ _ _ HE) in Hw by lia.
          apply (enqueue_all_mem _ _ _ (advanced_state s w) H). subst l. unfold advanced. apply in_map_iff. exists w. split; [reflexivity|].
          apply filter_In. auto.
      - destruct Hl as (c & l2 & En & -> & H2). intros c' Ec'. rewrite En in Ec'. injection Ec' as <-. split.
        + intros r Hr. apply (enqueue_all_mem _ _ _ (mkState r 1 (s_end s) (s_end s)) H). apply in_or_app. left. apply in_map_iff. exists r. auto.
        + intros Hlt w m Hw. apply (enqueue_all_mem _ _ _ (scanned_state s c w m) H). apply in_or_app. right.
          rewrite Ht in H2. subst i. apply Nat.ltb_lt in Hlt. rewrite Hlt in H2. apply (scanned_spec _ _ _ _ _ _ _ H2). eauto.
    Qed.

    Definition done_upto (i j : nat) (ch : chart) : Prop :=
      all_sane ch /\ (forall p s, p < i -> In s (states_at ch p) -> done ch s) /\
      (forall s, In s (firstn j (states_at ch i)) -> done ch s).

    Lemma process_position_done n : forall i j ch ch', done_upto i j ch ->
      process_position scan_mean re_match n ix i j ch = Ok ch' -> done_upto (i + 1) 0 ch'.
    Proof.
      induction n as [|n IH]; intros i j ch ch' (Ha & Hlow & Hj) H; simpl in H; [discriminate|].
      destruct (nth_error (states_at ch i) j) as [s|] eqn:E.
      - apply obind_ok in H as (ch1 & H1 & H). eapply IH; [|exact H]. clear H.
        pose proof (nth_error_In _ _ E) as Hin.
        pose proof (step_sane _ _ _ _ Ha Hin H1) as Ha1. destruct (step_ext _ _ _ _ Ha Hin H1) as [HE Hd].
        pose proof (step_completed _ _ _ _ _ _ _ H1) as HC.
        assert (HC' : ch_completed ch1 = ch_completed ch \/ ch_completed ch1 = completed_add s (ch_completed ch)).
        { rewrite HC. destruct (is_complete s); auto. }
        destruct (ext_grow _ _ _ HE i) as (more & Em).
        split; [exact Ha1|]. split.
        + intros p x Hp Hx. rewrite (ext_low _ _ _ HE) in Hx by lia. destruct Ha as [_ Ha]. destruct (Ha _ _ Hx) as [He Hs].
          apply (done_mono i ch ch1 s x HE HC' Hs); [lia|]. eapply Hlow; eassumption.
        + intros x Hx. rewrite Em in Hx. assert (Hlt : j < length (states_at ch i)) by (apply nth_error_Some; congruence).
          rewrite firstn_app in Hx. replace (j + 1 - length (states_at ch i)) with 0 in Hx by lia. simpl in Hx. rewrite app_nil_r in Hx.
          rewrite (firstn_snoc _ _ _ E) in Hx. apply in_app_or in Hx as [Hx|[<-|[]]]; [|exact Hd].
          assert (Hx' : In x (states_at ch i)) by (rewrite <- (firstn_skipn j (states_at ch i)); apply in_or_app; auto).
          destruct Ha as [_ Ha]. destruct (Ha _ _ Hx') as [He Hs].
          apply (done_mono i ch ch1 s x HE HC' Hs); [lia|]. auto.
      - injection H as <-. split; [exact Ha|]. split; [|intros s []].
        intros p s Hp Hs. destruct (Nat.eq_dec p i) as [->|Hne]; [|eapply Hlow; [|exact Hs]; lia].
        apply Hj. rewrite firstn_all2; [exact Hs|]. now apply nth_error_None.
    Qed.

    Lemma process_positions_done n k : forall i ch ch', done_upto i 0 ch ->
      process_positions scan_mean re_match n ix (seq i k) ch = Ok ch' -> done_upto (i + k) 0 ch'.
    Proof.
      induction k as [|k IH]; intros i ch ch' Hd H; simpl in H.
      - injection H as <-. now rewrite Nat.add_0_r.
      - apply obind_ok in H as (ch1 & H1 & H). replace (i + Datatypes.S k) with (Datatypes.S i + k) by lia. eapply IH; [|exact H].
        replace (Datatypes.S i) with (i + 1) by lia. eapply process_position_done; eassumption.
    Qed.

    Lemma build_closed n ch : build_chart n ix text = Ok ch ->
      all_sane ch /\ (forall p s, In s (states_at ch p) -> s_end s = p /\ done ch s) /\
      In (incomplete_gamma gamma_mean) (states_at ch 0) .
    Proof.
      intros H. pose proof (build_completed_ok _ _ _ _ _ _ _ H) as [Hends _].
      assert (H' := H). apply obind_ok in H as (ch0 & H0 & H). apply start_chart in H0 as (S1 & S2 & S3 & S4 & S5).
      assert (Ha0 : all_sane ch0).
      { split; [exact S3|]. intros [|p] s Hs; [rewrite S1 in Hs; destruct Hs as [<-|[]]; split; [reflexivity|apply sane_gamma]|].
        rewrite S2 in Hs by lia. contradiction. }
      assert (Hd : done_upto 0 0 ch0) by (split; [exact Ha0|split; [intros; lia|intros s []]]).
      pose proof (process_positions_done _ _ _ _ _ Hd H) as (Ha & Hlow & _).
      assert (Hlen : ext 0 ch0 ch).
      { revert H. apply (process_positions_inv scan_mean re_match ix (fun c => ext 0 ch0 c)); [|apply ext_refl].
        intros i c s c' Hc Hs Hst. eapply ext_trans; [exact Hc|]. eapply step_grows; eassumption. }
      split; [exact Ha|]. split.
      - intros p s Hs. split; [now apply Hends|]. eapply Hlow; [|exact Hs].
        destruct (Nat.lt_ge_cases p (0 + (String.length text + 1))) as [|Hge]; [assumption|exfalso].
        unfold states_at in Hs. rewrite nth_overflow in Hs; [contradiction|]. rewrite (ext_len _ _ _ Hlen), S5. lia.
      - eapply ext_in; [exact Hlen|]. rewrite S1. left. reflexivity.
    Qed.

    (** ** derivations are found *)
    Variable ch : chart.
    Hypothesis Hsane : forall p s, In s (states_at ch p) -> sane s.
    Hypothesis Hdone : forall p s, In s (states_at ch p) -> s_end s = p /\ done ch s.
    Hypothesis Hcompleted : completed_ok ch.
    Variable leaf : cstate -> Prop.
    Variable G : rule -> Prop.
    Hypothesis HG : forall r, G r -> In r (find_rules ix (k_pred (g_ante r)) (length (k_args (g_ante r)))).
    Hypothesis Hre : re_ok re_match.
    (** states for rules are inner nodes, those for words are leaves *)
    Hypothesis Hinner : forall p s r, In s (states_at ch p) -> G r -> same_syntax r (s_rule s) -> is_terminal s = Ok false.
    Hypothesis Hleaf : forall p s c w m, In s (states_at ch p) -> scans text (s_start s) c w m ->
      same_syntax (scanned_rule c w m) (s_rule s) ->
      is_terminal s = Ok true /\ g_mean (s_rule s) = m.

    Lemma chain_kinds cs : forall cs' i j sts, Forall2 same_kind cs cs' -> chain ch cs i j sts -> chain ch cs' i j sts.
    Proof.
      induction cs as [|c cs IH]; intros cs' i j sts HF HC; inversion HF; subst; inversion HC; subst; econstructor; eauto.
      eapply same_kind_trans; eassumption.
    Qed.

    Definition found (c : constituent) (i j : nat) (t : tree) : Prop :=
      exists st t', completed_at ch j st /\ same_kind (g_ante (s_rule st)) c /\ s_start st = i /\ tree_of ch st t' /\ same_tree t t'.

    Lemma skipn_next {A} (l : list A) k x rest : skipn k l = x :: rest -> nth_error l k = Some x /\ skipn (k + 1) l = rest.
    Proof.
      revert l. induction k as [|k IH]; intros l H.
      - simpl in *. subst. auto.
      - destruct l as [|y l]; [discriminate|]. simpl in *. apply IH. exact H.
    Qed.
    Lemma next_incomplete (s : cstate) c : sane s -> next_cons s = Some c -> is_complete s = false.
    Proof.
      intros [H1 _ _ _] H. unfold is_complete. apply Nat.leb_gt. unfold next_cons in H.
      assert (s_dot s - 1 < length (g_cons (s_rule s))) by (apply nth_error_Some; congruence). lia.
    Qed.
    Lemma completed_done p s : In s (states_at ch p) -> is_complete s = true -> completed_at ch p s.
    Proof.
      intros Hs Hc. destruct (Hdone _ _ Hs) as [He Hd]. unfold done in Hd. rewrite Hc in Hd. rewrite <- He. apply Hd.
    Qed.

    (** a state for a scanned word gives the leaf *)
    Lemma scanned_found s0 c0 c i w m r :
      In s0 (states_at ch i) -> next_cons s0 = Some c0 -> same_kind c0 c -> scans text i c0 w m -> i < String.length text ->
      leaf_rule c w m r ->
      found c i (i + String.length w) (Node (k_pred c) [] w r) /\ i < i + String.length w.
    Proof.
      intros Hs0 Hn Hk Hsc Hlt (L1 & L2 & _ & _). destruct (Hdone _ _ Hs0) as [He Hd]. pose proof (Hsane _ _ Hs0) as Hsn.
      unfold done in Hd. rewrite (next_incomplete _ _ Hsn Hn) in Hd. destruct (Hd _ Hn) as [_ H2]. rewrite He in H2.
      specialize (H2 Hlt _ _ Hsc). apply state_in_iff in H2 as (s1 & Hs1 & Hl). destruct Hl as (Hsyn & Hdot & Hst & Hend).
      simpl in Hsyn, Hdot, Hst, Hend. rewrite He in Hst, Hend.
      assert (Hsc1 : scans text (s_start s1) c0 w m) by (rewrite <- Hst; exact Hsc).
      destruct (Hleaf _ _ _ _ _ Hs1 Hsc1 Hsyn) as [HT HM].
      assert (Hcons : exists d, g_cons (s_rule s1) = [d] /\ k_pred d = w).
      { destruct Hsyn as (_ & _ & HF). simpl in HF. inversion HF as [|a d la lb Hd' HF' E1 E2]; subst. inversion HF'; subst.
        exists d. split; [reflexivity|]. destruct Hd' as (E & _). symmetry. exact E. }
      destruct Hcons as (d & Ed & Ew).
      assert (HKc : same_kind (g_ante (s_rule s1)) c).
      { destruct Hsyn as (_ & Hka & _). simpl in Hka. eapply same_kind_trans; [apply same_kind_sym; exact Hka|].
        destruct Hk as (K1 & K2 & K3). repeat split; simpl; assumption. }
      assert (Hw : w <> "").
      { eapply scans_nonempty; [exact Hsc|]. destruct Hsn as [_ _ _ [_ Hw]]. apply Hw. now apply next_in. }
      split; [|pose proof (nonempty_length _ Hw); lia].
      exists s1, (Node (k_pred (g_ante (s_rule s1))) [] (k_pred d) (s_rule s1)).
      split; [apply completed_done; [exact Hs1|unfold is_complete; rewrite Ed, <- Hdot; reflexivity]|].
      split; [exact HKc|]. split; [symmetry; exact Hst|]. split; [eapply tree_terminal; eassumption|].
      rewrite Ew. destruct HKc as (K1 & K2 & K3). rewrite K1. apply same_leaf; [|congruence].
      eapply same_kind_trans; [exact L1|]. apply same_kind_sym. repeat split; assumption.
    Qed.

    Lemma derivation_found :
      (forall c i j t, derives scan_mean re_match G text c i j t ->
         forall s0 c0, In s0 (states_at ch i) -> next_cons s0 = Some c0 -> same_kind c0 c -> found c i j t /\ i < j) /\
      (forall cs i j ts, derives_all scan_mean re_match G text cs i j ts ->
         forall w, In w (states_at ch i) -> Forall2 same_kind (skipn (s_dot w - 1) (g_cons (s_rule w))) cs ->
         (cs <> [] -> i < j) /\
         exists w' sts ts', In w' (states_at ch j) /\
           state_like (mkState (s_rule w) (s_dot w + length cs) (s_start w) j) w' /\
           chain ch cs i j sts /\ Forall2 (tree_of ch) sts ts' /\ Forall2 same_tree ts ts').
    Proof.
      apply derives_both.
      - intros c i w r T Hst Hl Hleafr s0 c0 Hs0 Hn Hk.
        assert (E : String.length w = String.length (k_pred c)) by (rewrite <- Hl; symmetry; apply lower_length).
        rewrite E. pose proof Hk as (K1 & K2 & K3).
        assert (Hsc : scans text i c0 (k_pred c) (scan_mean None)).
        { left. rewrite <- K1. repeat split; [congruence|]. unfold stands_at in Hst. rewrite K1, <- E, Hst. exact Hl. }
        eapply scanned_found; try eassumption.
        assert (Hne : k_pred c <> "").
        { eapply scans_nonempty; [exact Hsc|]. destruct (sane_rule _ (Hsane _ _ Hs0)) as [_ Hw]. apply Hw. now apply next_in. }
        apply nonempty_length in Hne. unfold stands_at in Hst. pose proof (take_short (String.length w) (drop i text)) as Hs.
        rewrite Hst, drop_length in Hs. lia.
      - intros c i m w r T Hm (rest & Em) Hne Hleafr s0 c0 Hs0 Hn Hk. pose proof Hk as (K1 & K2 & K3).
        pose proof (nonempty_length _ Hne) as Hlen.
        eapply scanned_found; try eassumption.
        + right. split; [congruence|]. split; [reflexivity|]. exists m, (String.length w).
          rewrite K1. split; [exact Hm|]. rewrite Em, take_append, append_length. split; [reflexivity|]. lia.
        + destruct (Hre _ _ _ Hm) as (rest2 & E). pose proof (drop_length i text) as Hd. rewrite E, Em, !append_length in Hd. lia.
      - intros c i j r ts HGr Hkr HD IH s0 c0 Hs0 Hn Hk. pose proof (Hsane _ _ Hs0) as Hsn.
        destruct (Hdone _ _ Hs0) as [He Hd]. unfold done in Hd. rewrite (next_incomplete _ _ Hsn Hn) in Hd.
        destruct (Hd _ Hn) as [H1 _]. rewrite He in H1. clear Hd.
        assert (Hr : In r (find_rules ix (k_pred c0) (length (k_args c0)))).
        { destruct Hk as (K1 & K2 & _), Hkr as (R1 & R2 & _). rewrite K1, K2, <- R1, <- R2. apply HG. exact HGr. }
        assert (Hsol : solid r) by (eapply Hsolid; exact Hr).
        apply H1 in Hr. apply state_in_iff in Hr as (s1 & Hs1 & (Hsyn & Hdot & Hst & Hend)). simpl in Hsyn, Hdot, Hst, Hend.
        destruct (IH s1 Hs1) as (Hlt & w' & sts & ts' & Hw' & Hlike & HC & HF & HS).
        { rewrite <- Hdot. simpl. destruct Hsyn as (_ & _ & HF). apply same_kinds_sym. exact HF. }
        destruct Hlike as (Lsyn & Ldot & Lst & Lend). simpl in Lsyn, Ldot, Lst, Lend.
        assert (Hsyn' : same_syntax r (s_rule w')) by (eapply same_syntax_trans; eassumption).
        split; [|apply Hlt; apply Hsol].
        assert (HK : same_kind (g_ante (s_rule w')) c).
        { eapply same_kind_trans; [|exact Hkr]. apply same_kind_sym. apply Hsyn'. }
        exists w', (Node (k_pred (g_ante (s_rule w'))) ts' "" (s_rule w')). split.
        { apply completed_done; [exact Hw'|]. unfold is_complete. apply Nat.leb_le.
          destruct Hsyn' as (_ & _ & HF'). apply Forall2_len in HF'. lia. }
        split; [exact HK|]. split; [congruence|]. split.
        { eapply tree_inner; [eapply Hinner; eassumption| |exact HF].
          destruct Hsyn' as (_ & _ & HF'). eapply chain_kinds; [exact HF'|].
          destruct (Hdone _ _ Hw') as [-> _]. rewrite <- Lst, <- Hst. exact HC. }
        destruct HK as (-> & _). apply same_node; assumption.
      - intros i w Hw HF. split; [congruence|]. exists w, [], []. split; [exact Hw|]. split; [|split; [constructor|split; constructor]].
        destruct (Hdone _ _ Hw) as [He _]. unfold state_like. simpl. repeat split; try lia; try apply same_syntax_refl.
      - intros c cs i j k t ts HD IH HD2 IH2 w Hw HF.
        destruct (skipn (s_dot w - 1) (g_cons (s_rule w))) as [|c0 rest] eqn:Esk; inversion HF as [|? ? ? ? Hk HFr]; subst.
        apply skipn_next in Esk as [Hn Hrest]. pose proof (Hsane _ _ Hw) as Hsn.
        destruct (IH w c0 Hw Hn Hk) as [(st & t' & Hat & HK & Hst & HT & HS) Hij].
        destruct (Hcompleted _ _ Hat) as [Hin Hc]. destruct (Hdone _ _ Hin) as [He Hd]. unfold done in Hd. rewrite Hc in Hd.
        destruct Hd as [_ Hd]. rewrite He, Hst in Hd.
        assert (Hwait : waits_for w st = true).
        { unfold waits_for. unfold next_cons at 1. rewrite Hn. destruct Hk as (K1 & _ & K3), HK as (J1 & _ & J3).
          apply andb_true_iff. split; [apply String.eqb_eq; congruence|apply ptype_eqb_iff; congruence]. }
        pose proof (Hd w Hw Hwait) as Hadv. apply state_in_iff in Hadv as (w1 & Hw1 & (Asyn & Adot & Ast & Aend)). simpl in Asyn, Adot, Ast, Aend.
        destruct (IH2 w1 Hw1) as (Hlt & w' & sts & ts' & Hw' & Hlike & HC & HFt & HSt).
        { assert (Er : skipn (s_dot w1 - 1) (g_cons (s_rule w)) = rest).
          { rewrite <- Hrest. f_equal. pose proof (sane_dot _ Hsn). lia. }
          destruct Asyn as (_ & _ & HFk). apply same_kinds_sym in HFk.
          eapply same_kinds_trans; [apply Forall2_skipn; exact HFk|]. rewrite Er. exact HFr. }
        destruct Hlike as (Lsyn & Ldot & Lst & Lend). simpl in Lsyn, Ldot, Lst, Lend.
        assert (Hjk : j <= k).
        { destruct cs as [|d cs]; [inversion HD2; subst; lia|]. assert (j < k) by (apply Hlt; discriminate). lia. }
        split; [lia|]. exists w', (st :: sts), (t' :: ts'). split; [exact Hw'|]. split.
        { unfold state_like. simpl. split; [eapply same_syntax_trans; eassumption|]. repeat split; try congruence. lia. }
        split; [econstructor; try eassumption; lia|]. split; constructor; assumption.
    Qed.
  End Closed.

  Lemma derives_mono (G G' : rule -> Prop) text : (forall r, G r -> G' r) ->
    (forall c i j t, derives scan_mean re_match G text c i j t -> derives scan_mean re_match G' text c i j t) /\
    (forall cs i j ts, derives_all scan_mean re_match G text cs i j ts -> derives_all scan_mean re_match G' text cs i j ts).
  Proof.
    intros H. apply derives_both; intros; [eapply derives_word|eapply derives_regexp|eapply derives_rule|apply derives_none|eapply derives_more]; eauto.
  Qed.

  Section Roots.
    Variable rules : list rule.
    Variable k : nat.
    Variable text : string.
    Let ix := after delta_mean (Datatypes.S k) (grammar_rules rules).
    Hypothesis Hproper : Forall proper_rule rules.
    Hypothesis Hplain : forall r, in_grammar rules r -> solid r /\ k_type (g_ante r) = PRelation.
    Hypothesis Hre : re_ok re_match.

    Definition extended (r : rule) : Prop :=
      in_grammar rules r \/ exists m, r = delta_rule delta_mean m /\ In m (find_argument_counts (grammar_rules rules) "s").

    Lemma extended_type r : extended r -> k_type (g_ante r) = PRelation.
    Proof. intros [H|(m & -> & _)]; [now apply Hplain|reflexivity]. Qed.
    Lemma extended_solid c n r : In r (find_rules ix c n) -> solid r.
    Proof.
      intros H. apply in_find_rules_after in H as [_ [H|(m & -> & _)]]; [now apply Hplain|].
      split; [discriminate|]. intros d [<-|[]]. discriminate.
    Qed.
    Lemma extended_found r : extended r -> In r (find_rules ix (k_pred (g_ante r)) (length (k_args (g_ante r)))).
    Proof.
      intros H. unfold ix. rewrite find_rules_after. apply in_or_app. destruct H as [H|(m & -> & Hm)].
      - left. apply in_find_rules. split; [exact H|]. auto.
      - right. simpl. apply in_or_app. left. apply in_map. exact Hm.
    Qed.

    Lemma chart_inner ch n p s r : build_chart n ix text = Ok ch -> In s (states_at ch p) -> extended r ->
      same_syntax r (s_rule s) -> is_terminal s = Ok false.
    Proof.
      intros Hb Hs Hr Hsyn. pose proof (build_origin _ _ _ _ _ _ _ Hb) as [_ Ho]. destruct (Ho _ _ Hs) as [_ Hos].
      destruct (origin_cases scan_mean delta_mean gamma_mean re_match rules (Datatypes.S k) text s Hos) as [E|[Hg|[(m & E & _)|(c & w & m & E & Hsc & _)]]].
      - unfold is_terminal. rewrite E. reflexivity.
      - pose proof (in_grammar_proper rules Hproper _ Hg) as [_ Hp]. destruct (Hplain _ Hg) as [[Hne _] _].
        unfold is_terminal. destruct (g_cons (s_rule s)) as [|c cs]; [congruence|]. destruct (Hp c (or_introl eq_refl)) as [_ Hc].
        destruct (k_args c) as [|a args]; [reflexivity|]. simpl in Hc. apply String.eqb_neq in Hc. now rewrite Hc.
      - unfold is_terminal. rewrite E. simpl. destruct m; reflexivity.
      - exfalso. destruct Hsyn as (_ & (_ & _ & K) & _). rewrite (extended_type _ Hr), E in K. simpl in K.
        destruct Hsc as [(T & _)|(T & _)]; congruence.
    Qed.
    Lemma chart_leaf ch n p s c w m : build_chart n ix text = Ok ch -> In s (states_at ch p) -> scans text (s_start s) c w m ->
      same_syntax (scanned_rule c w m) (s_rule s) -> is_terminal s = Ok true /\ g_mean (s_rule s) = m.
    Proof.
      intros Hb Hs Hsc Hsyn. pose proof (build_origin _ _ _ _ _ _ _ Hb) as [_ Ho]. destruct (Ho _ _ Hs) as [_ Hos].
      assert (HT : k_type (g_ante (s_rule s)) <> PRelation).
      { destruct Hsyn as (_ & (_ & _ & K) & _). simpl in K. rewrite <- K. destruct Hsc as [(T & _)|(T & _)]; congruence. }
      destruct (origin_cases scan_mean delta_mean gamma_mean re_match rules (Datatypes.S k) text s Hos) as [E|[Hg|[(m' & E & _)|(c' & w' & m' & E & Hsc' & _)]]].
      - rewrite E in HT. exfalso. apply HT. reflexivity.
      - exfalso. apply HT. now apply Hplain.
      - rewrite E in HT. exfalso. apply HT. reflexivity.
      - unfold is_terminal. rewrite E. split; [reflexivity|]. simpl.
        rewrite E in Hsyn. destruct Hsyn as (_ & (_ & _ & K) & HF). simpl in K, HF.
        inversion HF as [|? ? ? ? HW]; subst. destruct HW as (Ew & _). simpl in Ew. subst w'.
        destruct Hsc as [(T & _ & -> & _)|(T & -> & _)], Hsc' as [(T' & _ & -> & _)|(T' & -> & _)]; congruence.
    Qed.

    Theorem parse_complete n ch roots c t :
      build_chart n ix text = Ok ch -> extract_tree_roots gamma_mean n ch = Ok roots ->
      k_pred c = "s" -> k_type c = PRelation -> In (length (k_args c)) (find_argument_counts (grammar_rules rules) "s") ->
      derives scan_mean re_match (in_grammar rules) text c 0 (String.length text) t ->
      exists t', In t' roots /\ same_tree t t'.
    Proof.
      intros Hb He Hc Hct Hargs HD. pose proof (build_closed ix text extended_solid n ch Hb) as (Ha & Hd & Hg).
      pose proof (build_completed_ok _ _ _ _ _ _ _ Hb) as [Hends Hcok].
      set (m := length (k_args c)) in *.
      assert (Hdelta : derives scan_mean re_match extended text (mkCons "delta" ["D"] PRelation false false) 0 (String.length text)
                 (Node "delta" [t] "" (delta_rule delta_mean m))).
      { apply (derives_rule scan_mean re_match extended text (mkCons "delta" ["D"] PRelation false false) 0 (String.length text) (delta_rule delta_mean m) [t]).
        - right. exists m. auto.
        - repeat split.
        - econstructor; [|constructor].
          assert (HD' : derives scan_mean re_match extended text c 0 (String.length text) t).
          { revert HD. apply (proj1 (derives_mono _ _ text (fun r H => or_introl H : extended r))). }
          assert (HK : same_kind c (mkCons "s" (map (fun j => append "P" (repr_Z (Z.of_nat j))) (seq 1 m)) PRelation false false)).
          { split; [exact Hc|]. split; [simpl; rewrite map_length, seq_length; reflexivity|exact Hct]. }
          clear -HD' HK Hct. inversion HD' as [d i w r T|d i x w r T|d i j r ts Gr Kr HA]; subst; try congruence.
          destruct HK as (K1 & K2 & K3). rewrite K1. apply derives_rule; auto.
          eapply same_kind_trans; [exact Kr|]. repeat split; assumption. }
      destruct (proj1 (derivation_found ix text extended_solid ch (fun p s H => proj2 (proj2 Ha p s H)) Hd Hcok extended extended_found Hre
                  (fun p s r => chart_inner ch n p s r Hb) (fun p s c w m => chart_leaf ch n p s c w m Hb)) _ _ _ _ Hdelta
                  (incomplete_gamma gamma_mean) (mkCons "delta" ["D"] PRelation false false) Hg eq_refl (same_kind_refl _))
        as [(st & t' & Hat & HK & Hst & HT & HS) Hlt].
      inversion HS as [|cat ts ts' form r r' _ HF]; subst. inversion HF as [|? t1 ? ? Ht HF']; subst. inversion HF'; subst.
      assert (Htext : ch_text ch = text) by (apply Ha).
      exists t1. split; [|exact Ht].
      eapply (extract_complete gamma_mean ch n roots He).
      - rewrite Htext. destruct Hat as (l & El & _). eauto.
      - rewrite Htext. eapply tree_inner with (s := complete_gamma gamma_mean text) (sts := [st]); [reflexivity| |constructor; [exact HT|constructor]].
        simpl. econstructor; [exact Hat|exact HK|exact Hst|exact Hlt|constructor].
    Qed.
  End Roots.
End Complete.
