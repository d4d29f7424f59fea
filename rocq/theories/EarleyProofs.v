(** * Lemmas about the chart: what a step adds, invariants, termination *)

From Coq Require Import ZArith String Ascii List Bool Arith Lia.
From Verif Require Import Py Effects Grammar Earley ParserSpec GrammarProofs.
Import ListNotations.
Local Open Scope string_scope.
Local Open Scope list_scope.
Local Open Scope outcome_scope.

Lemma obind_ok {A B} (o : outcome A) (f : A -> outcome B) b :
  obind o f = Ok b -> exists a, o = Ok a /\ f a = Ok b.
Proof. destruct o; simpl; try discriminate. eauto. Qed.

(** ** text *)
Lemma take_length n : forall s, String.length (take n s) <= n.
Proof. induction n; intros [|c s]; simpl; try lia. specialize (IHn s). lia. Qed.
Lemma take_length_eq n : forall s, n <= String.length s -> String.length (take n s) = n.
Proof. induction n; intros [|c s]; simpl; intros; try lia. f_equal. apply IHn. lia. Qed.
Lemma take_short n : forall s, String.length (take n s) <= String.length s.
Proof. induction n; intros [|c s]; simpl; try lia. specialize (IHn s). lia. Qed.
Lemma drop_length n : forall s, String.length (drop n s) = String.length s - n.
Proof. induction n; intros [|c s]; simpl; try lia. apply IHn. Qed.
Lemma lower_length s : String.length (lower s) = String.length s.
Proof. induction s; simpl; congruence. Qed.
Lemma take_lower n : forall s, take n (lower s) = lower (take n s).
Proof. induction n; intros [|c s]; simpl; try reflexivity. now rewrite IHn. Qed.
Lemma take_drop n : forall s, append (take n s) (drop n s) = s.
Proof. induction n; intros [|c s]; simpl; try reflexivity. now rewrite IHn. Qed.
Lemma take_append a : forall b, take (String.length a) (append a b) = a.
Proof. induction a; intros b; simpl; [destruct b; reflexivity|]. now rewrite IHa. Qed.
Lemma drop_append a : forall b, drop (String.length a) (append a b) = b.
Proof. induction a; intros b; simpl; auto. Qed.
Lemma drop_drop m : forall n s, drop m (drop n s) = drop (n + m) s.
Proof.
  intros n. induction n as [|n IH]; intros s; simpl; [reflexivity|].
  destruct s; [|apply IH]. destruct m; reflexivity.
Qed.
Lemma append_length a : forall b, String.length (append a b) = String.length a + String.length b.
Proof. induction a; intros b; simpl; auto. Qed.
Lemma append_assoc a : forall b c, append (append a b) c = append a (append b c).
Proof. induction a; intros b c'; simpl; [reflexivity|]. now rewrite IHa. Qed.

Section Chart.
  Context {S : Type}.
  Variable scan_mean : option string -> S.
  Variable delta_mean gamma_mean : S.
  Variable re_match : string -> string -> outcome (option string).

  Notation rule := (grule S).
  Notation cstate := (@cstate S).
  Notation chart := (@chart S).

  (** ** equality of states *)
  Definition state_like (a b : cstate) : Prop :=
    same_syntax (s_rule a) (s_rule b) /\ s_dot a = s_dot b /\ s_start a = s_start b /\ s_end a = s_end b.

  Lemma state_eqb_iff a b : state_eqb a b = true <-> state_like a b.
  Proof.
    unfold state_eqb, state_like, same_syntax.
    rewrite !andb_true_iff, hash_eqb_iff, rule_equals_iff, !Nat.eqb_eq. tauto.
  Qed.
  Lemma same_syntax_refl (r : rule) : same_syntax r r.
  Proof.
    split; [reflexivity|]. split; [apply same_kind_refl|]. induction (g_cons r); constructor; auto. apply same_kind_refl.
  Qed.
  Lemma same_kinds_sym l : forall l', Forall2 same_kind l l' -> Forall2 same_kind l' l.
  Proof. induction l; intros l' H; inversion H; subst; constructor; auto. now apply same_kind_sym. Qed.
  Lemma same_kinds_trans l : forall l' l'', Forall2 same_kind l l' -> Forall2 same_kind l' l'' -> Forall2 same_kind l l''.
  Proof.
    induction l; intros l' l'' H H'; inversion H; subst; inversion H'; subst; constructor; eauto.
    eapply same_kind_trans; eassumption.
  Qed.
  Lemma same_syntax_sym (a b : rule) : same_syntax a b -> same_syntax b a.
  Proof.
    intros (H1 & H2 & H3). split; [congruence|]. split; [now apply same_kind_sym|now apply same_kinds_sym].
  Qed.
  Lemma same_syntax_trans (a b c : rule) : same_syntax a b -> same_syntax b c -> same_syntax a c.
  Proof.
    intros (H1 & H2 & H3) (G1 & G2 & G3). split; [congruence|]. split; [eapply same_kind_trans; eassumption|].
    eapply same_kinds_trans; eassumption.
  Qed.
  Lemma state_like_refl a : state_like a a.
  Proof. split; [apply same_syntax_refl|]. auto. Qed.
  Lemma state_like_sym a b : state_like a b -> state_like b a.
  Proof. intros (H & ? & ? & ?). split; [now apply same_syntax_sym|]. auto. Qed.
  Lemma state_like_trans a b c : state_like a b -> state_like b c -> state_like a c.
  Proof.
    intros (H & ? & ? & ?) (H' & ? & ? & ?). split; [eapply same_syntax_trans; eassumption|].
    repeat split; congruence.
  Qed.
  Lemma state_in_iff s l : state_in s l = true <-> exists s', In s' l /\ state_like s s'.
  Proof.
    unfold state_in. rewrite existsb_exists. split; intros (x & Hx & E); exists x; split; auto; now apply state_eqb_iff.
  Qed.

  (** ** [enqueue] *)
  Lemma replace_nth_length {A} i (x : A) : forall l, length (replace_nth i x l) = length l.
  Proof. induction i; intros [|y l]; simpl; auto. Qed.
  Lemma nth_replace_same {A} i (x d : A) : forall l, i < length l -> nth i (replace_nth i x l) d = x.
  Proof. induction i; intros [|y l]; simpl; intros; try lia; auto. apply IHi. lia. Qed.
  Lemma nth_replace_other {A} i (x d : A) : forall l p, p <> i -> nth p (replace_nth i x l) d = nth p l d.
  Proof.
    induction i; intros [|y l] p Hp; simpl; auto; destruct p; auto; try contradiction.
  Qed.

  Lemma enqueue_ok s pos (ch ch' : chart) : enqueue s pos ch = Ok ch' ->
    pos < length (ch_states ch) /\ ch_text ch' = ch_text ch /\ ch_completed ch' = ch_completed ch /\
    length (ch_states ch') = length (ch_states ch) /\
    (forall p, p <> pos -> states_at ch' p = states_at ch p) /\
    ((state_in s (states_at ch pos) = true /\ ch' = ch) \/
     (state_in s (states_at ch pos) = false /\ states_at ch' pos = states_at ch pos ++ [s])).
  Proof.
    unfold enqueue. destruct (nth_error (ch_states ch) pos) as [l|] eqn:E; [|discriminate].
    assert (Hl : states_at ch pos = l) by (unfold states_at; now apply nth_error_nth).
    assert (Hp : pos < length (ch_states ch)) by (apply nth_error_Some; congruence).
    rewrite Hl. destruct (state_in s l) eqn:Es; intros [= <-].
    - repeat (split; [auto|]). left; auto.
    - simpl. rewrite replace_nth_length. do 4 (split; [auto|]). split.
      + intros p Hn. unfold states_at. simpl. now apply nth_replace_other.
      + right. split; auto. unfold states_at. simpl. now apply nth_replace_same.
  Qed.

  Lemma enqueue_returns s pos (ch : chart) : pos < length (ch_states ch) -> exists ch', enqueue s pos ch = Ok ch'.
  Proof.
    intros H. unfold enqueue. destruct (nth_error (ch_states ch) pos) as [l|] eqn:E.
    - destruct (state_in s l); eauto.
    - apply nth_error_None in E. lia.
  Qed.
  Lemma enqueue_outcome s pos (ch : chart) : (exists ch', enqueue s pos ch = Ok ch') \/ enqueue s pos ch = Exn IndexErr.
  Proof.
    unfold enqueue. destruct (nth_error (ch_states ch) pos) as [l|]; auto. destruct (state_in s l); eauto.
  Qed.

  (** enqueueing a list of states, each at its end *)
  Fixpoint enqueue_all (l : list cstate) (ch : chart) : outcome chart :=
    match l with
    | [] => Ok ch
    | s :: rest => ch' <- enqueue s (s_end s) ch ;; enqueue_all rest ch'
    end.

  Lemma enqueue_all_app l1 : forall l2 ch, enqueue_all (l1 ++ l2) ch = obind (enqueue_all l1 ch) (enqueue_all l2).
  Proof.
    induction l1 as [|s l1 IH]; intros l2 ch; simpl; [reflexivity|].
    destruct (enqueue s (s_end s) ch); simpl; auto.
  Qed.

  (** [ch'] is [ch] with states added at positions from [i] *)
  Record ext (i : nat) (ch ch' : chart) : Prop := {
    ext_text : ch_text ch' = ch_text ch;
    ext_len : length (ch_states ch') = length (ch_states ch);
    ext_low : forall p, p < i -> states_at ch' p = states_at ch p;
    ext_grow : forall p, exists new, states_at ch' p = states_at ch p ++ new
  }.
  Lemma ext_refl i ch : ext i ch ch.
  Proof. split; auto. intros p. exists []. now rewrite app_nil_r. Qed.
  Lemma ext_trans i ch1 ch2 ch3 : ext i ch1 ch2 -> ext i ch2 ch3 -> ext i ch1 ch3.
  Proof.
    intros [A1 A2 A3 A4] [B1 B2 B3 B4]. split; try congruence.
    - intros p Hp. rewrite B3, A3; auto.
    - intros p. destruct (A4 p) as (n1 & E1). destruct (B4 p) as (n2 & E2). exists (n1 ++ n2). rewrite E2, E1. now rewrite app_assoc.
  Qed.
  Lemma ext_lower i j ch ch' : i <= j -> ext j ch ch' -> ext i ch ch'.
  Proof. intros H [A1 A2 A3 A4]. split; auto. intros p Hp. apply A3. lia. Qed.
  Lemma ext_in i ch ch' p s : ext i ch ch' -> In s (states_at ch p) -> In s (states_at ch' p).
  Proof. intros [_ _ _ H] Hs. destruct (H p) as (new & ->). apply in_or_app. auto. Qed.
  Lemma ext_state_in i ch ch' p s : ext i ch ch' -> state_in s (states_at ch p) = true -> state_in s (states_at ch' p) = true.
  Proof. intros He. rewrite !state_in_iff. intros (x & Hx & E). exists x. split; auto. eapply ext_in; eassumption. Qed.

  Lemma enqueue_ext i s pos ch ch' : i <= pos -> enqueue s pos ch = Ok ch' -> ext i ch ch'.
  Proof.
    intros Hi H. apply enqueue_ok in H as (Hp & Ht & _ & Hl & Ho & Hc). split; auto.
    - intros p Hlt. apply Ho. lia.
    - intros p. destruct (Nat.eq_dec p pos) as [->|Hn].
      + destruct Hc as [(_ & ->)|(_ & ->)]; [exists []; now rewrite app_nil_r|eauto].
      + exists []. rewrite app_nil_r. auto.
  Qed.

  Lemma enqueue_all_ext i l : forall ch ch', (forall s, In s l -> i <= s_end s) -> enqueue_all l ch = Ok ch' -> ext i ch ch'.
  Proof.
    induction l as [|s l IH]; intros ch ch' Hi H; simpl in H; [inversion H; apply ext_refl|].
    apply obind_ok in H as (ch1 & H1 & H). apply ext_trans with ch1.
    - eapply enqueue_ext; [|exact H1]. apply Hi. left; auto.
    - apply IH; auto. intros x Hx. apply Hi. right; auto.
  Qed.
  Lemma enqueue_all_completed l : forall ch ch', enqueue_all l ch = Ok ch' -> ch_completed ch' = ch_completed ch.
  Proof.
    induction l as [|s l IH]; intros ch ch' H; simpl in H; [inversion H; auto|].
    apply obind_ok in H as (ch1 & H1 & H). apply enqueue_ok in H1 as (_ & _ & Hc & _). apply IH in H. congruence.
  Qed.
  Lemma enqueue_all_mem l : forall ch ch' s, enqueue_all l ch = Ok ch' -> In s l -> state_in s (states_at ch' (s_end s)) = true.
  Proof.
    induction l as [|x l IH]; intros ch ch' s H Hs; [contradiction|]. simpl in H.
    apply obind_ok in H as (ch1 & H1 & H). destruct Hs as [->|Hs]; [|eapply IH; eassumption].
    assert (He : ext 0 ch1 ch') by (eapply enqueue_all_ext; [|exact H]; intros; lia).
    eapply ext_state_in; [exact He|]. apply enqueue_ok in H1 as (_ & _ & _ & _ & _ & [(Hin & ->)|(_ & ->)]); auto.
    apply state_in_iff. exists s. split; [apply in_or_app; right; left; auto|apply state_like_refl].
  Qed.
  Lemma enqueue_all_only l : forall ch ch' p s, enqueue_all l ch = Ok ch' -> In s (states_at ch' p) ->
    In s (states_at ch p) \/ (In s l /\ s_end s = p).
  Proof.
    induction l as [|x l IH]; intros ch ch' p s H Hs; simpl in H; [inversion H; subst; auto|].
    apply obind_ok in H as (ch1 & H1 & H). destruct (IH _ _ _ _ H Hs) as [H2|(H2 & E)]; [|right; split; [right|]; auto].
    apply enqueue_ok in H1 as (_ & _ & _ & _ & Ho & Hc). destruct (Nat.eq_dec p (s_end x)) as [->|Hn].
    - destruct Hc as [(_ & ->)|(_ & E)]; [auto|]. rewrite E in H2. apply in_app_or in H2 as [H2|[<-|[]]]; auto.
      right. split; [left|]; auto.
    - rewrite Ho in H2; auto.
  Qed.
  Lemma enqueue_all_returns l : forall ch, (forall s, In s l -> s_end s < length (ch_states ch)) ->
    exists ch', enqueue_all l ch = Ok ch'.
  Proof.
    induction l as [|x l IH]; intros ch H; simpl; [eauto|].
    destruct (enqueue_returns x (s_end x) ch) as (ch1 & E); [apply H; left; auto|]. rewrite E. simpl.
    apply IH. apply enqueue_ok in E as (_ & _ & _ & El & _). rewrite El. intros s Hs. apply H. right; auto.
  Qed.
  Lemma enqueue_all_outcome l : forall ch, (exists ch', enqueue_all l ch = Ok ch') \/ enqueue_all l ch = Exn IndexErr.
  Proof.
    induction l as [|x l IH]; intros ch; simpl; [eauto|].
    destruct (enqueue_outcome x (s_end x) ch) as [(ch1 & ->)| ->]; simpl; auto.
  Qed.

  (** the states at a position are different *)
  Inductive distinct : list cstate -> Prop :=
  | distinct_nil : distinct []
  | distinct_add l s : distinct l -> state_in s l = false -> distinct (l ++ [s]).
  Lemma distinct_NoDup l : distinct l -> NoDup l.
  Proof.
    induction 1 as [|l s Hd IH Hs]; [constructor|].
    apply NoDup_Add with (a := s) (l := l); [rewrite <- (app_nil_r l) at 1; apply Add_app|].
    split; auto. intros Hi. assert (state_in s l = true); [|congruence].
    apply state_in_iff. exists s. split; auto. apply state_like_refl.
  Qed.
  Lemma enqueue_all_distinct l : forall ch ch', (forall p, distinct (states_at ch p)) -> enqueue_all l ch = Ok ch' ->
    forall p, distinct (states_at ch' p).
  Proof.
    induction l as [|x l IH]; intros ch ch' Hd H; simpl in H; [inversion H; subst; auto|].
    apply obind_ok in H as (ch1 & H1 & H). apply (IH ch1 ch'); auto.
    apply enqueue_ok in H1 as (_ & _ & _ & _ & Ho & Hc). intros p. destruct (Nat.eq_dec p (s_end x)) as [->|Hn].
    - destruct Hc as [(_ & ->)|(Hf & ->)]; auto. constructor; auto.
    - rewrite Ho; auto.
  Qed.

  (** ** what a step adds *)
  Definition predicted (ix : gindex S) (s : cstate) (c : constituent) : list cstate :=
    map (fun r => mkState r 1 (s_end s) (s_end s)) (find_rules ix (k_pred c) (length (k_args c))).

  Definition scanned_state (s : cstate) (c : constituent) (w : string) (m : S) : cstate :=
    mkState (scanned_rule c w m) 2 (s_end s) (s_end s + String.length w).
  Definition scanned (text : string) (s : cstate) (c : constituent) : outcome (list cstate) :=
    match k_type c with
    | PRegExp =>
        m <- re_match (k_pred c) (drop (s_end s) text) ;;
        Ok (match m with
            | Some word => map (fun n => scanned_state s c (take n word) (scan_mean (Some (take n word)))) (seq 1 (String.length word))
            | None => []
            end)
    | PWord => Ok (if read_word text (s_end s) (k_pred c) then [scanned_state s c (k_pred c) (scan_mean None)] else [])
    | PRelation => Ok []
    end.

  (** does [completed] match the next constituent of [w]? *)
  Definition waits_for (w completed : cstate) : bool :=
    match next_cons w with
    | Some c => String.eqb (k_pred c) (k_pred (g_ante (s_rule completed))) &&
                ptype_eqb (k_type c) (k_type (g_ante (s_rule completed)))
    | None => false
    end.
  Definition advanced_state (completed w : cstate) : cstate :=
    mkState (s_rule w) (s_dot w + 1) (s_start w) (s_end completed).
  Definition advanced (waiting : list cstate) (completed : cstate) : list cstate :=
    map (advanced_state completed) (filter (fun w => waits_for w completed) waiting).

  Lemma predict_loop_all rules e : forall ch,
    predict_loop rules e ch = enqueue_all (map (fun r => mkState r 1 e e) rules) ch.
  Proof.
    induction rules as [|r rules IH]; intros ch; simpl; [reflexivity|].
    destruct (enqueue _ _ _); simpl; auto.
  Qed.
  Lemma scan_prefixes_all s c word ns : forall ch,
    scan_prefixes scan_mean ch s c word ns =
    enqueue_all (map (fun n => scanned_state s c (take n word) (scan_mean (Some (take n word)))) ns) ch.
  Proof.
    induction ns as [|n ns IH]; intros ch; simpl; [reflexivity|].
    unfold add_scanned_state. destruct (enqueue _ _ _); simpl; auto.
  Qed.
  Lemma scan_all ch s c : next_cons s = Some c ->
    scan scan_mean re_match ch s = obind (scanned (ch_text ch) s c) (fun l => enqueue_all l ch).
  Proof.
    intros H. unfold scan, scanned. rewrite H. destruct (k_type c).
    - reflexivity.
    - destruct (read_word _ _ _); simpl; [|reflexivity]. unfold add_scanned_state, scanned_state. simpl.
      destruct (enqueue _ _ _); reflexivity.
    - destruct (re_match _ _) as [[word|]| |]; simpl; try reflexivity. apply scan_prefixes_all.
  Qed.
  Lemma complete_loop_all waiting s : forall ch ch',
    complete_loop waiting s ch = Ok ch' -> enqueue_all (advanced waiting s) ch = Ok ch'.
  Proof.
    unfold advanced. induction waiting as [|w waiting IH]; intros ch ch' H; simpl in H |- *; [exact H|].
    unfold waits_for at 1. destruct (next_cons w) as [c|]; [|apply IH; exact H].
    destruct (String.eqb (k_pred c) _ && ptype_eqb (k_type c) _) eqn:E; [|apply IH; exact H].
    simpl. unfold advanced_state at 1 2. cbn [s_end]. destruct (enqueue _ _ ch) as [ch1| |]; simpl in *; try discriminate.
    match type of H with (if ?b then _ else _) = _ => destruct b end; [discriminate|]. apply IH. exact H.
  Qed.
  (** completing a state that is not empty never finds the loop disturbed *)
  Lemma complete_loop_nonempty waiting s : s_start s < s_end s -> forall ch,
    complete_loop waiting s ch = enqueue_all (advanced waiting s) ch.
  Proof.
    intros Hs. assert (E0 : Nat.eqb (s_start s) (s_end s) = false) by (apply Nat.eqb_neq; lia).
    unfold advanced. induction waiting as [|w waiting IH]; intros ch; simpl; [reflexivity|].
    unfold waits_for at 1. destruct (next_cons w) as [c|]; [|apply IH].
    destruct (String.eqb (k_pred c) _ && ptype_eqb (k_type c) _) eqn:E; [|apply IH].
    simpl. unfold advanced_state at 1 2. cbn [s_end]. rewrite E0. simpl. destruct (enqueue _ _ ch); simpl; auto.
  Qed.
  Lemma complete_loop_outcome (waiting : list cstate) s : forall ch,
    (exists ch', complete_loop waiting s ch = Ok ch') \/ complete_loop waiting s ch = Exn IndexErr \/
    (s_start s = s_end s /\ complete_loop waiting s ch = Exn RuntimeErr).
  Proof.
    induction waiting as [|w waiting IH]; intros ch; simpl; [eauto|].
    destruct (next_cons w) as [c|]; [|apply IH].
    destruct (String.eqb (k_pred c) _ && ptype_eqb (k_type c) _); [|apply IH].
    destruct (enqueue_outcome (mkState (s_rule w) (s_dot w + 1) (s_start w) (s_end s)) (s_end s) ch) as [(ch1 & ->)| ->]; simpl; [|auto].
    destruct (Nat.eqb_spec (s_start s) (s_end s)) as [E|_]; simpl; [|apply IH].
    destruct (negb _); [right; right; auto|apply IH].
  Qed.

  (** the states that [s] gives rise to *)
  Definition successors (ix : gindex S) (i : nat) (ch : chart) (s : cstate) (l : list cstate) : Prop :=
    if is_complete s then l = advanced (states_at ch (s_start s)) s
    else exists c l2, next_cons s = Some c /\ l = predicted ix s c ++ l2 /\
           if Nat.ltb i (String.length (ch_text ch)) then scanned (ch_text ch) s c = Ok l2 else l2 = [].

  Lemma step_successors ix i ch s ch' : step scan_mean re_match ix i ch s = Ok ch' ->
    exists l, successors ix i ch s l /\
      enqueue_all l (if is_complete s then index_completed s ch else ch) = Ok ch'.
  Proof.
    unfold step, successors. destruct (is_complete s) eqn:Ec; intros H.
    - eexists. split; [reflexivity|]. apply complete_loop_all. exact H.
    - apply obind_ok in H as (ch1 & H1 & H). unfold predict in H1.
      destruct (next_cons s) as [c|] eqn:En; [|discriminate]. rewrite predict_loop_all in H1.
      assert (Ht : ch_text ch1 = ch_text ch).
      { eapply ext_text. eapply (enqueue_all_ext 0); [|exact H1]. intros; lia. }
      destruct (Nat.ltb i (String.length (ch_text ch))).
      + rewrite (scan_all _ _ _ En), Ht in H. apply obind_ok in H as (l2 & H2 & H).
        exists (predicted ix s c ++ l2). split; [exists c, l2; auto|]. rewrite enqueue_all_app. unfold predicted. now rewrite H1.
      + inversion H; subst. exists (predicted ix s c ++ []). split; [exists c, []; auto|].
        rewrite app_nil_r. exact H1.
  Qed.

  (** what a scanned state is *)
  Definition scans (text : string) (i : nat) (c : constituent) (w : string) (m : S) : Prop :=
    (k_type c = PWord /\ w = k_pred c /\ m = scan_mean None /\ lower (take (String.length w) (drop i text)) = w) \/
    (k_type c = PRegExp /\ m = scan_mean (Some w) /\ exists word n, re_match (k_pred c) (drop i text) = Ok (Some word) /\
       w = take n word /\ 1 <= n <= String.length word).
  Lemma scanned_spec text s c l x : scanned text s c = Ok l ->
    (In x l <-> exists w m, scans text (s_end s) c w m /\ x = scanned_state s c w m).
  Proof.
    unfold scanned, scans. destruct (k_type c) eqn:Et.
    - intros [= <-]. split; [contradiction|]. intros (w & m & [(? & _)|(? & _)] & _); discriminate.
    - unfold read_word. rewrite take_lower. destruct (String.eqb_spec (lower (take (String.length (k_pred c)) (drop (s_end s) text))) (k_pred c)) as [E|E]; intros [= <-].
      + split.
        * intros [<-|[]]. exists (k_pred c), (scan_mean None). split; [left|]; auto.
        * intros (w & m & [(_ & -> & -> & _)|(? & _)] & ->); [left; auto|discriminate].
      + split; [contradiction|]. intros (w & m & [(_ & -> & -> & ?)|(? & _)] & _); [contradiction|discriminate].
    - destruct (re_match _ _) as [[word|]| |] eqn:Er; simpl; try discriminate; intros [= <-].
      + rewrite in_map_iff. split.
        * intros (n & <- & Hn). apply in_seq in Hn. exists (take n word), (scan_mean (Some (take n word))). split; [|reflexivity].
          right. repeat (split; [reflexivity|]). exists word, n. split; [reflexivity|]. split; [reflexivity|]. lia.
        * intros (w & m & [(? & _)|(_ & -> & word' & n & [= <-] & -> & Hn)] & ->); [discriminate|].
          exists n. split; [reflexivity|]. apply in_seq. lia.
      + split; [contradiction|]. intros (w & m & [(? & _)|(_ & _ & word' & n & [=] & _)] & _). discriminate.
  Qed.

  (** ** invariants

      [P] holds for the states that arise from states for which it holds *)
  Section Invariant.
    Variable ix : gindex S.
    Variable text : string.
    Variable P : cstate -> Prop.
    Hypothesis Hpred : forall s c r, P s -> next_cons s = Some c -> is_complete s = false ->
      In r (find_rules ix (k_pred c) (length (k_args c))) -> P (mkState r 1 (s_end s) (s_end s)).
    Hypothesis Hscan : forall s c w m, P s -> next_cons s = Some c -> scans text (s_end s) c w m ->
      s_end s < String.length text -> P (scanned_state s c w m).
    Hypothesis Hadv : forall w c s, P w -> P s -> is_complete s = true -> s_end w = s_start s -> next_cons w = Some c ->
      k_pred c = k_pred (g_ante (s_rule s)) -> k_type c = k_type (g_ante (s_rule s)) ->
      P (advanced_state s w).

    Definition all_states (ch : chart) : Prop :=
      ch_text ch = text /\ forall p s, In s (states_at ch p) -> s_end s = p /\ P s.

    Lemma successors_P i ch s l x : all_states ch -> In s (states_at ch i) -> successors ix i ch s l -> In x l -> P x.
    Proof.
      intros [Ht Ha] Hs Hsucc Hx. destruct (Ha _ _ Hs) as [He HP]. unfold successors in Hsucc.
      destruct (is_complete s) eqn:Ec.
      - subst l. unfold advanced in Hx. apply in_map_iff in Hx as (w & <- & Hw). apply filter_In in Hw as [Hw Hf].
        destruct (Ha _ _ Hw) as [Hwe HPw]. unfold waits_for in Hf. destruct (next_cons w) as [c|] eqn:En; [|discriminate].
        apply andb_true_iff in Hf as [E1 E2]. apply String.eqb_eq in E1. apply ptype_eqb_iff in E2.
        eapply Hadv; eauto.
      - destruct Hsucc as (c & l2 & En & -> & H2). apply in_app_or in Hx as [Hx|Hx].
        + unfold predicted in Hx. apply in_map_iff in Hx as (r & <- & Hr). eapply Hpred; eauto.
        + destruct (Nat.ltb_spec i (String.length (ch_text ch))) as [Hlt|_]; [|subst; contradiction].
          apply (proj1 (scanned_spec _ _ _ _ x H2)) in Hx as (w & m & Hsc & ->). rewrite Ht in Hsc, Hlt. subst i. eapply Hscan; eauto.
    Qed.

    Lemma index_completed_states s (ch : chart) p : states_at (index_completed s ch) p = states_at ch p.
    Proof. reflexivity. Qed.

    Lemma step_all_states i ch s ch' : all_states ch -> In s (states_at ch i) -> step scan_mean re_match ix i ch s = Ok ch' -> all_states ch'.
    Proof.
      intros Ha Hs H. apply step_successors in H as (l & Hl & H).
      set (ch0 := if is_complete s then index_completed s ch else ch) in H.
      assert (Hst : forall p, states_at ch0 p = states_at ch p) by (intros p; unfold ch0; destruct (is_complete s); reflexivity).
      assert (Htx : ch_text ch0 = ch_text ch) by (unfold ch0; destruct (is_complete s); reflexivity).
      split.
      - pose proof (enqueue_all_ext 0 l ch0 ch' (fun _ _ => Nat.le_0_l _) H) as He. rewrite (ext_text _ _ _ He), Htx. apply Ha.
      - intros p x Hx. destruct (enqueue_all_only _ _ _ _ _ H Hx) as [Hx'|[Hx' E]].
        + rewrite Hst in Hx'. now apply Ha.
        + split; auto. eapply successors_P; eauto.
    Qed.

    Lemma process_position_all n : forall i j ch ch', all_states ch ->
      process_position scan_mean re_match n ix i j ch = Ok ch' -> all_states ch'.
    Proof.
      induction n as [|n IH]; intros i j ch ch' Ha H; simpl in H; [discriminate|].
      destruct (nth_error (states_at ch i) j) as [s|] eqn:E; [|inversion H; subst; auto].
      apply obind_ok in H as (ch1 & H1 & H). eapply IH; [|exact H].
      eapply step_all_states; [exact Ha| |exact H1]. eapply nth_error_In; eassumption.
    Qed.
    Lemma process_positions_all n is : forall ch ch', all_states ch ->
      process_positions scan_mean re_match n ix is ch = Ok ch' -> all_states ch'.
    Proof.
      induction is as [|i is IH]; intros ch ch' Ha H; simpl in H; [inversion H; subst; auto|].
      apply obind_ok in H as (ch1 & H1 & H). eapply IH; [|exact H]. eapply process_position_all; eassumption.
    Qed.

    Lemma states_empty p : states_at (@empty_chart S text) p = [].
    Proof.
      unfold states_at, empty_chart. cbn [ch_states]. destruct (nth_in_or_default p (repeat (@nil cstate) (String.length text + 1)) []) as [H|H]; [|exact H].
      now apply repeat_spec in H.
    Qed.
    Lemma start_chart ch : enqueue (incomplete_gamma gamma_mean) 0 (empty_chart text) = Ok ch ->
      states_at ch 0 = [incomplete_gamma gamma_mean] /\ (forall p, 0 < p -> states_at ch p = []) /\
      ch_text ch = text /\ ch_completed ch = [] /\ length (ch_states ch) = String.length text + 1.
    Proof.
      intros H. apply enqueue_ok in H as (_ & Ht & Hc & Hl & Ho & Hd). rewrite !states_empty in Hd.
      destruct Hd as [(Hd & _)|(_ & Hd)]; [discriminate|]. split; [exact Hd|]. split.
      - intros p Hp. rewrite Ho by lia. apply states_empty.
      - split; [exact Ht|]. split; [exact Hc|]. rewrite Hl. apply repeat_length.
    Qed.

    Lemma build_chart_all n ch : P (incomplete_gamma gamma_mean) ->
      build_chart scan_mean gamma_mean re_match n ix text = Ok ch -> all_states ch.
    Proof.
      intros HP H. apply obind_ok in H as (ch0 & H0 & H). eapply process_positions_all; [|exact H].
      apply start_chart in H0 as (H1 & H2 & H3 & _). split; [exact H3|].
      intros [|p] s Hs.
      - rewrite H1 in Hs. destruct Hs as [<-|[]]. auto.
      - rewrite H2 in Hs by lia. contradiction.
    Qed.
  End Invariant.
End Chart.
