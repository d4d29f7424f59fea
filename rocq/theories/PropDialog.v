(** * C47: dialog tests *)

From Coq Require Import ZArith String Ascii List Bool Arith Lia.
From Verif Require Import Py PyFacts Effects Grammar Earley Composer Solver ResultIterator Pipeline QuestionSystem Logger LoggerProofs PropLogger DialogTester.
Import ListNotations.
Local Open Scope nat_scope.
Local Open Scope string_scope.
Local Open Scope list_scope.

Section Exchanges.
  Context {V : Type} (re_match : string -> string -> outcome (option string)) (kp kc ke : bkind) (fuel : nat)
    (opt : option (list value -> list string -> outcome (list (string * value)))) (sv : solver_if V) (store : list value -> M V unit)
    (generator : option (M V value)).

  (** what the system does with a text, when nobody looks: [enter], and if
      that returns, [read_output] *)
  Inductive reply_to (text : string) (w : world V) : outcome value -> world V -> Prop :=
  | enter_raises e w' : ask re_match kp kc ke fuel opt sv store text w = (Exn e, w') -> reply_to text w (Exn e) w'
  | enter_runs_on w' : ask re_match kp kc ke fuel opt sv store text w = (OutOfFuel, w') -> reply_to text w OutOfFuel w'
  | no_generator a w' : ask re_match kp kc ke fuel opt sv store text w = (Ok a, w') -> generator = None ->
      reply_to text w (Ok (VStr "")) w'
  | generated a w1 g o v' : ask re_match kp kc ke fuel opt sv store text w = (Ok a, w1) -> generator = Some g ->
      g (sw_model w1) = (o, v') -> reply_to text w o (mkWorld (sw_grammar w1) (sw_number w1) v').

  (** the texts are entered one after the other, and each of the replies is
      equal to the one that is expected *)
  Inductive as_expected : list (string * value) -> world V -> world V -> Prop :=
  | nothing_left w : as_expected [] w w
  | one_more text expected output tests w w1 w' : reply_to text w (Ok output) w1 -> py_eq output expected = true ->
      as_expected tests w1 w' -> as_expected ((text, expected) :: tests) w w'.

  (** what the last reply makes of the test *)
  Inductive goes_wrong (expected : value) : outcome value -> verdict -> Prop :=
  | other_output output : py_eq output expected = false -> goes_wrong expected (Ok output) AssertionFailed
  | raises e : goes_wrong expected (Exn e) (Raised e)
  | runs_on : goes_wrong expected OutOfFuel NotFinished.

  Notation run := (test_dialog re_match kp kc ke fuel opt sv store generator).

  Lemma reply_to_fun text w o1 w1 o2 w2 : reply_to text w o1 w1 -> reply_to text w o2 w2 -> o1 = o2 /\ w1 = w2.
  Proof. intros H1 H2. inversion H1; subst; inversion H2; subst; try congruence; split; try congruence; rewrite H in *; congruence. Qed.

  Lemma ask_logged_fact text w lg : let '(o, w') := ask re_match kp kc ke fuel opt sv store text w in
    exists o' lg', ask_logged re_match kp kc ke fuel opt sv store text (w, lg) = (o', (w', lg')) /\ same_settings lg lg' /\
      (exists texts, lg_entries lg' = lg_entries lg ++ texts) /\
      match o with Ok _ => exists a, o' = Ok a | Exn e => o' = Exn e | OutOfFuel => o' = OutOfFuel end.
  Proof.
    pose proof (C48_logging_only_adds_to_the_log V re_match kp kc ke fuel opt sv store text w lg) as H.
    destruct (ask_recorded re_match kp kc ke fuel opt sv store text (w, [])) as [o [w1 ev]].
    destruct (ask_logged re_match kp kc ke fuel opt sv store text (w, lg)) as [o' [w' lg']].
    destruct H as (-> & Ho & -> & Hs & texts & _ & E). exists o', lg'. split; [reflexivity|]. split; [exact Hs|]. split; [eauto|].
    inversion Ho; subst; eauto.
  Qed.

  (** ** what is in the log about a test *)
  Definition is_logged (which : tests_logged) (last t : test) : Prop :=
    which = LogAll \/ (which = LogLast /\ fst t = fst last /\ py_eq (snd t) (snd last) = true).

  (** the products that are shown while the system reads the text *)
  Definition reading_log (lg : logger) (text : string) (w : world V) (texts : list string) : Prop :=
    exists o w' events, ask_recorded re_match kp kc ke fuel opt sv store text (w, []) = (o, (w', events)) /\ log_of lg events texts.

  Variables (width : nat) (msecs : nat -> nat).
  Definition outcome_log (number : nat) (o : outcome value) : list string :=
    match o with
    | Ok output => [key_value_entry "Computer" (py_str output); comment_entry (nat_text (msecs number) ++ " msecs")%string]
    | _ => []
    end.

  (** [number]: the tests before it *)
  Inductive test_log (lg : logger) (last : test) (number : nat) (t : test) (w : world V) (o : outcome value) : list string -> Prop :=
  | test_logged texts : is_logged (lg_which lg) last t ->
      reading_log (set_last true lg) (fst t) w texts ->
      test_log lg last number t w o
        ([separator_entry width (S number); key_value_entry "Human" (fst t)] ++ texts ++ outcome_log number o)
  | only_the_error output : ~ is_logged (lg_which lg) last t -> o = Ok output -> py_eq output (snd t) = false ->
      test_log lg last number t w o (outcome_log number o)
  | nothing_logged : ~ is_logged (lg_which lg) last t -> (forall output, o = Ok output -> py_eq output (snd t) = true) ->
      test_log lg last number t w o [].

  Lemma log_this_spec lg last t : log_this lg last t = true <-> is_logged (lg_which lg) last t.
  Proof.
    unfold log_this, is_logged, same_test. destruct (lg_which lg); try (intuition congruence).
    rewrite andb_true_iff, String.eqb_eq. intuition congruence.
  Qed.

  Lemma log_of_settings lg lg' events texts : same_settings lg lg' -> log_of lg events texts -> log_of lg' events texts.
  Proof.
    intros (E1 & E2 & E3 & E4) H. assert (Hs : forall k, shown lg k <-> shown lg' k) by (intros k; unfold shown; now rewrite E1, E2, E3, E4).
    induction H; constructor; auto; [now apply Hs|now rewrite <- Hs].
  Qed.

  Definition same_choice (lg lg' : logger) : Prop :=
    lg_which lg = lg_which lg' /\ lg_products lg = lg_products lg' /\ lg_processors lg = lg_processors lg'.

  Lemma run_test_fact last i t s v s' :
    run_test (ask_logged re_match kp kc ke fuel opt sv store) (reader generator) width msecs last i t s = (v, s') ->
    exists o, reply_to (fst t) (ts_system s) o (ts_system s') /\
      ((exists output, o = Ok output /\ py_eq output (snd t) = true /\ v = Passed) \/ goes_wrong (snd t) o v) /\
      ts_printed s' = ts_printed s ++ match v with Passed | NotFinished => [] | _ => [(logger_str (ts_logger s') ++ lf)%string] end /\
      same_choice (ts_logger s) (ts_logger s') /\
      exists texts, test_log (ts_logger s) last i t (ts_system s) o texts /\ lg_entries (ts_logger s') = lg_entries (ts_logger s) ++ texts.
  Proof.
    destruct t as [text expected], s as [w lg printed]. unfold run_test. cbn [fst snd ts_system ts_logger ts_printed].
    set (logs := log_this lg last (text, expected)). set (lg1 := announce width logs (S i) text (set_last logs lg)).
    assert (Ch1 : same_choice lg lg1) by (unfold lg1, announce; destruct logs; repeat split).
    assert (En1 : lg_entries lg1 = lg_entries lg ++ if logs then [separator_entry width (S i); key_value_entry "Human" text] else []).
    { unfold lg1, announce. destruct logs; cbn [append_entry set_last lg_entries]; [now rewrite <- app_assoc|now rewrite app_nil_r]. }
    pose proof (C48_logging_only_adds_to_the_log V re_match kp kc ke fuel opt sv store text w lg1) as H.
    destruct (ask_recorded re_match kp kc ke fuel opt sv store text (w, [])) as [o0 [w1 ev]] eqn:Erec.
    destruct (ask_logged re_match kp kc ke fuel opt sv store text (w, lg1)) as [o' [w2 lg2]] eqn:Elog.
    destruct H as (Eask & Ho & -> & Hset & texts & Htexts & Een).
    assert (Ch2 : same_choice lg lg2).
    { destruct Ch1 as (C1 & C2 & C3), Hset as (S1 & _ & S3 & S4). repeat split; congruence. }
    (* what reading adds *)
    assert (Hread : if logs then is_logged (lg_which lg) last (text, expected) /\ reading_log (set_last true lg) text w texts
                    else ~ is_logged (lg_which lg) last (text, expected) /\ texts = []).
    { destruct logs eqn:El.
      - split; [apply log_this_spec; exact El|]. exists o0, w1, ev. split; [exact Erec|]. eapply log_of_settings; [|exact Htexts].
        unfold lg1, announce, same_settings. repeat split.
      - split; [rewrite <- log_this_spec; unfold logs in El; congruence|].
        assert (N : lg_which lg1 = LogNone \/ (lg_which lg1 = LogLast /\ lg_last lg1 = false) \/ lg_products lg1 = false).
        { unfold lg1, announce. cbn. unfold logs, log_this in El. destruct (lg_which lg); auto; discriminate. }
        pose proof (C48_nothing_is_logged_for_other_tests V re_match kp kc ke fuel opt sv store text w lg1 N) as Hn. rewrite Elog in Hn. cbn in Hn. subst lg2.
        apply (f_equal (@length string)) in Een. rewrite app_length in Een. destruct texts; [reflexivity|cbn in Een; lia]. }
    (* what the rest adds *)
    assert (Fin : forall o lg3, (match o with Ok output => lg3 = report msecs (logs || negb (py_eq output expected)) i output lg2 | _ => lg3 = lg2 end) ->
      same_choice lg lg3 /\ exists texts, test_log lg last i (text, expected) w o texts /\ lg_entries lg3 = lg_entries lg ++ texts).
    { intros o lg3 E3. split.
      { destruct o; subst lg3; auto. unfold report. destruct (logs || _); auto. }
      destruct logs eqn:El; destruct Hread as (Hr1 & Hr2).
      - exists ([separator_entry width (S i); key_value_entry "Human" text] ++ texts ++ outcome_log i o). split; [now constructor|].
        destruct o; subst lg3; cbn [outcome_log]; unfold report; cbn [orb append_entry lg_entries]; rewrite Een, En1, <- !app_assoc, ?app_nil_r; reflexivity.
      - subst texts. rewrite app_nil_r in En1, Een. destruct o as [output|e|]; cbn [orb] in E3.
        + destruct (py_eq output expected) eqn:Eq; cbn [negb] in E3; subst lg3.
          * exists []. split; [apply nothing_logged; auto; intros ? [= <-]; exact Eq|]. unfold report. rewrite Een, En1; now rewrite app_nil_r.
          * eexists. split; [eapply only_the_error; eauto|]. unfold report, outcome_log. cbn [append_entry lg_entries]. rewrite Een, En1, <- ?app_assoc. reflexivity.
        + subst lg3. exists []. split; [apply nothing_logged; auto; discriminate|]. rewrite Een, En1; now rewrite app_nil_r.
        + subst lg3. exists []. split; [apply nothing_logged; auto; discriminate|]. rewrite Een, En1; now rewrite app_nil_r. }
    unfold stop. inversion Ho as [a b Hab E1 E2|e E1 E2|E1 E2]; subst.
    - assert (Hgen : exists oo w3, match reader generator with
                       Some read => read w1 | None => (Ok (VStr ""), w1) end = (oo, w3) /\ reply_to text w oo w3).
      { unfold reader. destruct generator as [g|] eqn:Eg.
        - unfold on_model. destruct (g (sw_model w1)) as [oo v3] eqn:E3. exists oo, (mkWorld (sw_grammar w1) (sw_number w1) v3).
          split; [reflexivity|]. eapply generated; eauto.
        - exists (Ok (VStr "")), w1. split; [reflexivity|]. eapply no_generator; eauto. }
      destruct Hgen as (oo & w3 & Hgen & Hrep).
      rewrite Hgen. destruct oo as [output|e|].
      + destruct (py_eq output expected) eqn:Eq; intros [= <- <-]; cbn [ts_system ts_logger ts_printed].
        * exists (Ok output). split; [exact Hrep|]. split; [left; eauto|]. split; [now rewrite app_nil_r|].
          apply (Fin (Ok output)). now rewrite Eq.
        * exists (Ok output). split; [exact Hrep|]. split; [right; now constructor|]. split; [reflexivity|]. apply (Fin (Ok output)). now rewrite Eq.
      + intros [= <- <-]; cbn [ts_system ts_logger ts_printed]. exists (Exn e). split; [exact Hrep|]. split; [right; constructor|]. split; [reflexivity|]. now apply (Fin (Exn e)).
      + intros [= <- <-]; cbn [ts_system ts_logger ts_printed]. exists OutOfFuel. split; [exact Hrep|]. split; [right; constructor|].
        split; [now rewrite app_nil_r|]. now apply (Fin OutOfFuel).
    - intros [= <- <-]; cbn [ts_system ts_logger ts_printed]. exists (Exn e). split; [now constructor|]. split; [right; constructor|]. split; [reflexivity|]. now apply (Fin (Exn e)).
    - intros [= <- <-]; cbn [ts_system ts_logger ts_printed]. exists OutOfFuel. split; [now constructor|]. split; [right; constructor|].
      split; [now rewrite app_nil_r|]. now apply (Fin OutOfFuel).
  Qed.

  Lemma run_tests_fact last : forall tests i s v s',
    run_tests (ask_logged re_match kp kc ke fuel opt sv store) (reader generator) width msecs last i tests s = (v, s') ->
    (v = Passed /\ as_expected tests (ts_system s) (ts_system s') /\ ts_printed s' = ts_printed s) \/
    exists done t rest w o, tests = done ++ t :: rest /\ as_expected done (ts_system s) w /\ reply_to (fst t) w o (ts_system s') /\
      goes_wrong (snd t) o v /\
      ts_printed s' = ts_printed s ++ match v with NotFinished => [] | _ => [(logger_str (ts_logger s') ++ lf)%string] end.
  Proof.
    induction tests as [|[text expected] tests IH]; intros i s v s'; cbn [run_tests].
    - intros [= <- <-]. left. repeat split. constructor.
    - destruct (run_test _ _ _ _ _ _ _ _) as [v1 s1] eqn:E1. pose proof (run_test_fact _ _ _ _ _ _ E1) as (o & Hr & Hv & Hp & _).
      destruct Hv as [(output & -> & Eq & ->)|Hw].
      + rewrite app_nil_r in Hp. intros H. destruct (IH _ _ _ _ H) as [(-> & Ha & Hp')|(done & t & rest & w & o & -> & Ha & Hb & Hc & Hd)].
        * left. split; [reflexivity|]. split; [econstructor; eauto|congruence].
        * right. exists ((text, expected) :: done), t, rest, w, o. split; [reflexivity|]. split; [econstructor; eauto|]. split; [exact Hb|]. split; [exact Hc|]. now rewrite Hd, Hp.
      + intros H. right. exists [], (text, expected), tests, (ts_system s), o.
        assert (H' : (v1, s1) = (v, s')) by (inversion Hw; subst; exact H). injection H' as <- <-. split; [reflexivity|]. split; [constructor|].
        split; [exact Hr|]. split; [exact Hw|]. rewrite Hp. now inversion Hw.
  Qed.

  Lemma as_expected_fun tests : forall w w1 w2, as_expected tests w w1 -> as_expected tests w w2 -> w1 = w2.
  Proof.
    induction tests as [|[q e] tests IH]; intros w w1 w2 H1 H2; inversion H1; subst; inversion H2; subst; auto.
    match goal with A : reply_to _ _ _ _, B : reply_to _ _ _ _ |- _ => destruct (reply_to_fun _ _ _ _ _ _ A B) as (E1 & ->) end. eauto.
  Qed.
  Lemma expected_stops done t rest : forall w w1 w2 o wo v, as_expected (done ++ t :: rest) w w2 -> as_expected done w w1 ->
    reply_to (fst t) w1 o wo -> goes_wrong (snd t) o v -> False.
  Proof.
    induction done as [|[q e] done IH]; intros w w1 w2 o wo v H1 H2 H3 H4; cbn in H1; inversion H1; subst; inversion H2; subst.
    - cbn in *. match goal with A : reply_to _ _ _ _, B : reply_to _ _ _ _ |- _ => destruct (reply_to_fun _ _ _ _ _ _ A B) as (E1 & ->) end.
      subst. inversion H4; congruence.
    - match goal with A : reply_to q _ _ _, B : reply_to q _ _ _ |- _ => destruct (reply_to_fun _ _ _ _ _ _ A B) as (E1 & ->) end. eauto.
  Qed.

  (** the log after a run *)
  Inductive logs_of (lg : logger) (last : test) : nat -> list test -> world V -> list string -> Prop :=
  | no_logs i w : logs_of lg last i [] w []
  | passed_log i t tests w output w1 texts texts' : reply_to (fst t) w (Ok output) w1 -> py_eq output (snd t) = true ->
      test_log lg last i t w (Ok output) texts -> logs_of lg last (S i) tests w1 texts' ->
      logs_of lg last i (t :: tests) w (texts ++ texts')
  | failed_log i t tests w o w1 v texts : reply_to (fst t) w o w1 -> goes_wrong (snd t) o v ->
      test_log lg last i t w o texts -> logs_of lg last i (t :: tests) w texts.

  Lemma test_log_choice lg lg' last i t w o texts : same_choice lg lg' -> test_log lg last i t w o texts -> test_log lg' last i t w o texts.
  Proof.
    intros (E1 & E2 & E3) H. destruct H as [texts H1 (o' & w' & ev & H2 & H3)|output H1 H2 H3|H1 H2]; rewrite E1 in H1.
    - apply test_logged; auto. exists o', w', ev. split; auto. eapply log_of_settings; [|exact H3]. repeat split; auto.
    - eapply only_the_error; eauto.
    - now apply nothing_logged.
  Qed.
  Lemma logs_of_choice lg lg' last i tests w texts : same_choice lg lg' -> logs_of lg last i tests w texts -> logs_of lg' last i tests w texts.
  Proof. intros C H. induction H; [constructor|eapply passed_log; eauto using test_log_choice|eapply failed_log; eauto using test_log_choice]. Qed.

  Lemma run_tests_log last : forall tests i s v s',
    run_tests (ask_logged re_match kp kc ke fuel opt sv store) (reader generator) width msecs last i tests s = (v, s') ->
    exists texts, logs_of (ts_logger s) last i tests (ts_system s) texts /\ lg_entries (ts_logger s') = lg_entries (ts_logger s) ++ texts.
  Proof.
    induction tests as [|t tests IH]; intros i s v s'; cbn [run_tests].
    - intros [= <- <-]. exists []. split; [constructor|now rewrite app_nil_r].
    - destruct (run_test _ _ _ _ _ _ _ _) as [v1 s1] eqn:E1. pose proof (run_test_fact _ _ _ _ _ _ E1) as (o & Hr & Hv & _ & Hc & texts & Ht & Ee).
      destruct Hv as [(output & -> & Eq & ->)|Hw].
      + intros H. destruct (IH _ _ _ _ H) as (texts' & Hl & Ee'). exists (texts ++ texts'). split; [|rewrite Ee', Ee; now rewrite app_assoc].
        eapply passed_log; eauto. eapply logs_of_choice; [|exact Hl]. destruct Hc as (C1 & C2 & C3). repeat split; auto.
      + intros H. assert (H' : (v1, s1) = (v, s')) by (inversion Hw; subst; exact H). injection H' as <- <-. exists texts. split; [eapply failed_log; eauto|exact Ee].
  Qed.
End Exchanges.

(** ** the theorems *)

(** Every system, logger and list of tests.  The run passes just when the
    system, asked the questions one after the other without logger, gives
    replies that are equal to those expected, and then prints nothing. *)
Theorem C47_tests_pass_when_the_replies_are_as_expected :
  forall (V : Type) re_match kp kc ke fuel opt (sv : solver_if V) store generator width msecs tests w lg printed,
    let '(v, s) := test_dialog re_match kp kc ke fuel opt sv store generator width msecs tests (mkTester w lg printed) in
    forall w', (v = Passed /\ ts_system s = w') <-> as_expected re_match kp kc ke fuel opt sv store generator tests w w'.
Proof.
  intros V re_match kp kc ke fuel opt sv store generator width msecs tests w lg printed.
  destruct (test_dialog _ _ _ _ _ _ _ _ _ _ _ _ _) as [v s] eqn:E. unfold test_dialog, do_run in E.
  destruct (rev tests) as [|last r] eqn:Er.
  - injection E as <- <-. apply (f_equal (@rev test)) in Er. rewrite rev_involutive in Er. subst tests. cbn.
    intros w'. split; [intros (_ & <-); constructor|intros H; inversion H; auto].
  - apply run_tests_fact in E as [(-> & Ha & _)|(done & t & rest & w1 & o & -> & Ha & Hb & Hc & _)]; intros w'.
    + cbn in Ha. split; [intros (_ & <-); exact Ha|]. intros H. split; [reflexivity|]. eapply as_expected_fun; eauto.
    + split; [intros (-> & _); inversion Hc|]. intros H. exfalso. eapply expected_stops; eauto.
Qed.
Print Assumptions C47_tests_pass_when_the_replies_are_as_expected.

(** A run that does not pass stops at the first reply that is not the one
    expected: the tests after it are not entered, and the log is printed, once. *)
Theorem C47_a_run_stops_at_the_first_wrong_reply :
  forall (V : Type) re_match kp kc ke fuel opt (sv : solver_if V) store generator width msecs tests w lg printed,
    let '(v, s) := test_dialog re_match kp kc ke fuel opt sv store generator width msecs tests (mkTester w lg printed) in
    (v = Passed -> ts_printed s = printed) /\
    (v <> Passed -> exists done text expected rest w1 o,
       tests = done ++ (text, expected) :: rest /\
       as_expected re_match kp kc ke fuel opt sv store generator done w w1 /\
       reply_to re_match kp kc ke fuel opt sv store generator text w1 o (ts_system s) /\
       goes_wrong expected o v /\
       (v <> NotFinished -> ts_printed s = printed ++ [(logger_str (ts_logger s) ++ lf)%string])).
Proof.
  intros V re_match kp kc ke fuel opt sv store generator width msecs tests w lg printed.
  destruct (test_dialog _ _ _ _ _ _ _ _ _ _ _ _ _) as [v s] eqn:E. unfold test_dialog, do_run in E.
  destruct (rev tests) as [|last r] eqn:Er.
  - injection E as <- <-. split; [reflexivity|congruence].
  - apply run_tests_fact in E as [(-> & Ha & Hp)|(done & t & rest & w1 & o & -> & Ha & Hb & Hc & Hd)].
    + split; [auto|congruence].
    + split; [intros ->; inversion Hc|]. intros _. destruct t as [text expected]. exists done, text, expected, rest, w1, o.
      repeat (split; [first [reflexivity|exact Ha|exact Hb|exact Hc]|]). intros N. cbn in Hd. destruct v; auto; congruence.
Qed.
Print Assumptions C47_a_run_stops_at_the_first_wrong_reply.

(** What a run adds to the log: for each of the tests that is logged its
    number, the question, the products that are shown, and the reply; for the
    other tests nothing, except the reply if that is wrong. *)
Theorem C47_the_log_of_a_run :
  forall (V : Type) re_match kp kc ke fuel opt (sv : solver_if V) store generator width msecs tests last w lg printed,
    let '(v, s) := test_dialog re_match kp kc ke fuel opt sv store generator width msecs (tests ++ [last]) (mkTester w lg printed) in
    exists texts, logs_of re_match kp kc ke fuel opt sv store generator width msecs lg last 0 (tests ++ [last]) w texts /\
      lg_entries (ts_logger s) = lg_entries lg ++ texts.
Proof.
  intros V re_match kp kc ke fuel opt sv store generator width msecs tests last w lg printed.
  destruct (test_dialog _ _ _ _ _ _ _ _ _ _ _ _ _) as [v s] eqn:E. unfold test_dialog, do_run in E. rewrite rev_unit in E.
  now apply run_tests_log in E.
Qed.
Print Assumptions C47_the_log_of_a_run.
