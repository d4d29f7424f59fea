(** * C48: the logger *)

From Coq Require Import ZArith String Ascii List Bool Arith Lia.
From Verif Require Import PyFacts LexerProofs Py ReprProofs Effects Grammar Earley Composer ComposerSpec Solver CoreModule InferenceModule TableModule ResultIterator Pipeline QuestionSystem Logger LoggerProofs ExampleWorld PropFrame PropComposer DatalogThms PropDatalog PropSystem.
Import ListNotations.
Local Open Scope nat_scope.
Local Open Scope string_scope.
Local Open Scope list_scope.

(** the products as they are made *)
Definition embed_result (res : presult sproduct) : presult lproduct :=
  mkPResult (map embed (pr_products res)) (pr_error res) (pr_args res).

Lemma erase_embed p : erase (embed p) = p.
Proof. destruct p as [t|c|[l|s n]]; cbn; try reflexivity. now rewrite Nat2Z.id. Qed.

(** writing down which processors were run, with which results *)
Definition event : Type := (nat * presult sproduct)%type.
Definition record_result (k : nat) (res : presult sproduct) (l : list event) : presult sproduct * list event := (res, l ++ [(k, res)]).
Definition ask_recorded {V} re_match kp kc ke fuel opt sv (store : list value -> M V unit) (text : string) (s : world V * list event)
    : outcome (option (option sres)) * (world V * list event) :=
  let '(o, (s', _)) := enter sproduct (option sres) sys_output
      (fun l s => let '(o, w) := on_model (store l) (fst s) in (o, (w, snd s)))
      (map (logged_block record_result) (question_blocks re_match kp kc ke fuel opt sv)) (s, mkRequest text [] []) in (o, s').

Lemma map_related {A B C} (R : B -> C -> Prop) (f : A -> B) (g : A -> C) : (forall a, R (f a) (g a)) -> forall l, Forall2 R (map f l) (map g l).
Proof. intros H l. induction l; cbn; constructor; auto. Qed.

Section Run.
  Context {V : Type} (re_match : string -> string -> outcome (option string)) (kp kc ke : bkind) (fuel : nat)
    (opt : option (list value -> list string -> outcome (list (string * value)))) (sv : solver_if V) (store : list value -> M V unit)
    (text : string).
  Notation recorded := (ask_recorded re_match kp kc ke fuel opt sv store text).
  Notation logged_run := (ask_logged re_match kp kc ke fuel opt sv store text).

  (** the run that is recorded is the run *)
  Lemma recorded_ask w ev : let '(o, (w', _)) := recorded (w, ev) in ask re_match kp kc ke fuel opt sv store text w = (o, w').
  Proof.
    unfold ask_recorded, ask.
    pose proof (enter_related (fun (s : world V * list event) w => fst s = w) eq eq sys_output sys_output (fun p1 p2 E => f_equal sys_output E)
      (fun l s => let '(o, w) := on_model (store l) (fst s) in (o, (w, snd s))) (fun l => on_model (store l))) as H.
    specialize H with (bs1 := map (logged_block record_result) (question_blocks re_match kp kc ke fuel opt sv))
      (bs2 := question_blocks re_match kp kc ke fuel opt sv).
    assert (Hr : forall r1 r2 : request sproduct, related_request eq r1 r2 -> r1 = r2).
    { intros r1 r2 Hr. destruct r1, r2. destruct Hr as (E1 & E2 & E3). cbn in *. f_equal; auto.
      - induction E2 as [|[] [] ? ? (? & ?) ? IH]; cbn in *; [reflexivity|]. now subst.
      - induction E3 as [|[] [] ? ? (? & F) ? IH]; cbn in *; [reflexivity|]. subst. f_equal. f_equal. clear -F. induction F; [reflexivity|now subst]. }
    assert (Hl : forall l : list sproduct, Forall2 eq l l) by (induction l; constructor; auto).
    assert (Hb : forall b : @block (world V) sproduct, related_block (fun (s : world V * list event) w => fst s = w) eq (logged_block record_result b) b).
    { intros [k p]. split; [reflexivity|]. split; [reflexivity|]. intros r1 r2 E [w1 l1] w2 Ew. apply Hr in E. cbn [fst] in Ew. subst. cbn.
      destruct (p_process p r2 w2) as [[res|e|] w']; cbn; (split; [constructor|reflexivity]). split; auto. }
    destruct H with (s1 := ((w, ev), mkRequest text [] [] : request sproduct)) (s2 := (w, mkRequest text [] [] : request sproduct)) as (Ho & Hs).
    { intros l [w1 l1] w2 Ew; cbn in *; subst; unfold on_model; destruct (store l (sw_model w2)) as [[[]|e|] v]; cbn; (split; [now constructor|reflexivity]). }
    { rewrite <- (map_id (question_blocks re_match kp kc ke fuel opt sv)) at 2. now apply map_related. }
    { split; [reflexivity|split; [reflexivity|split; constructor]]. }
    destruct (enter _ _ _ _ (map _ _) _) as [o1 [[w1 ev1] r1]], (enter _ _ _ _ (question_blocks _ _ _ _ _ _ _) _) as [o2 [w2 r2]].
    destruct Hs as (Ew & _). cbn in *. subst. f_equal. destruct Ho as [a b Hab|e|]; auto. f_equal. unfold related_output in Hab. destruct a, b; try contradiction; congruence.
  Qed.

  Section With.
    Variable lg0 : logger.
    Variable RL : logger -> list event -> Prop.
    Variable RP : lproduct -> sproduct -> Prop.
    Hypothesis RP_erase : forall p1 p2, RP p1 p2 -> erase p1 = p2.
    Hypothesis step : forall k res lg ev, RL lg ev ->
      let '(res1, lg1) := add_process_result system_name product_log k (embed_result res) lg in
      related_result RP res1 res /\ RL lg1 (ev ++ [(k, res)]).
    Variable RO : option answer -> option sres -> Prop.
    Hypothesis RP_out : forall p1 p2, RP p1 p2 -> RO (object_output p1) (sys_output p2).

    Lemma logged_recorded w lg ev : RL lg ev ->
      let '(o, (w1, ev1)) := recorded (w, ev) in
      let '(o', (w', lg')) := logged_run (w, lg) in
      w' = w1 /\ RL lg' ev1 /\ same_outcome (related_output RO) o' o.
    Proof.
      intros HL. unfold ask_recorded, ask_logged. set (RWs := fun (s1 : world V * logger) (s2 : world V * list event) => fst s1 = fst s2 /\ RL (snd s1) (snd s2)).
      assert (Hb : forall b : @block (world V) sproduct, related_block RWs RP
        (logged_block (add_process_result system_name product_log) (mkBlock (b_kind b) (on_objects (b_proc b)))) (logged_block record_result b)).
      { intros [k p]. split; [reflexivity|]. split; [reflexivity|]. intros r1 r2 (E1 & E2 & E3) [w1 l1] [w2 l2] (Ew & Hl). cbn [fst snd] in *. subst w2.
        assert (Er : embed_request r1 = r2).
        { destruct r1, r2. unfold embed_request. cbn in *. f_equal; auto.
          - clear -E2 RP_erase. induction E2 as [|[] [] ? ? (? & ?) ? IH]; cbn in *; [reflexivity|]. subst. f_equal; auto. f_equal. now apply RP_erase.
          - clear -E3 RP_erase. induction E3 as [|[] [] ? ? (? & F) ? IH]; cbn in *; [reflexivity|]. subst. f_equal; auto. f_equal.
            clear -F RP_erase. induction F; cbn; [reflexivity|]. f_equal; auto. }
        cbn. rewrite Er. destruct (p_process p r2 w1) as [[res|e|] w']; cbn [fst snd].
        - pose proof (step (p_id p) res l1 l2 Hl) as Hs. unfold embed_result in Hs.
          destruct (add_process_result system_name product_log (p_id p) _ l1) as [res1 lg1]. cbn [fst snd].
          destruct Hs as (H1 & H2). split; [now constructor|]. split; auto.
        - split; [constructor|split; auto].
        - split; [constructor|split; auto]. }
      pose proof (enter_related RWs RP RO object_output sys_output RP_out
        (fun l s => let '(o, w) := on_model (store l) (fst s) in (o, (w, snd s)))
        (fun l s => let '(o, w) := on_model (store l) (fst s) in (o, (w, snd s)))) as H.
      specialize H with (bs1 := map (fun b => logged_block (add_process_result system_name product_log) (mkBlock (b_kind b) (on_objects (b_proc b))))
        (question_blocks re_match kp kc ke fuel opt sv)) (bs2 := map (logged_block record_result) (question_blocks re_match kp kc ke fuel opt sv)).
      destruct H with (s1 := ((w, lg), mkRequest text [] [] : request lproduct)) (s2 := ((w, ev), mkRequest text [] [] : request sproduct)) as (Ho & Hs).
      { intros l [w1 l1] [w2 l2] (Ew & Hl); cbn in *; subst; unfold on_model; destruct (store l (sw_model w2)) as [[[]|e|] v]; cbn;
        (split; [now constructor|split; auto]). }
      { now apply map_related. }
      { split; [split; auto|split; [reflexivity|split; constructor]]. }
      destruct (enter sproduct _ _ _ _ _) as [o2 [[w2 ev2] r2]], (enter lproduct _ _ _ _ _) as [o1 [[w1 lg1] r1]].
      destruct Hs as ((Ew & HL') & _). cbn in *. auto.
    Qed.
  End With.
End Run.

Lemma appended l : forall lg, lg_entries (fold_left (fun lg e => append_entry e lg) l lg) = lg_entries lg ++ l /\
  lg_which (fold_left (fun lg e => append_entry e lg) l lg) = lg_which lg /\ lg_last (fold_left (fun lg e => append_entry e lg) l lg) = lg_last lg /\
  lg_products (fold_left (fun lg e => append_entry e lg) l lg) = lg_products lg /\
  lg_processors (fold_left (fun lg e => append_entry e lg) l lg) = lg_processors lg.
Proof.
  induction l as [|e l IH]; intros lg; cbn [fold_left]; [rewrite app_nil_r; auto|].
  destruct (IH (append_entry e lg)) as (-> & -> & -> & -> & ->). cbn. rewrite <- app_assoc. auto.
Qed.

(** reading an iterator to its end *)
Definition used_up (it : result_iterator) : Prop := forall fuel, 0 < fuel -> fst (it_list fuel it) = Ok [].
Lemma past_end it : (it_number it <= it_index it)%Z -> used_up it.
Proof.
  intros H fuel Hf. destruct fuel; [lia|]. cbn [it_list]. unfold it_next.
  replace (it_index it + 1 >? it_number it)%Z with true by (symmetry; rewrite Z.gtb_ltb; apply Z.ltb_lt; lia). reflexivity.
Qed.
Lemma log_iterator s n : product_log (LIterator (new_iterator s (Z.of_nat n)))
  = ([plain_entry (join lf (map (fun j => (py_str s ++ py_str (VInt (Z.of_nat j)))%string) (seq 1 n)))], LIterator (mkIter s (Z.of_nat n) (Z.of_nat n + 1))).
Proof.
  unfold product_log, new_iterator. cbn [it_number it_index]. rewrite (it_list_from s (Z.of_nat n) n _ 0%Z); [|lia|lia]. reflexivity.
Qed.
Lemma log_erase p : erase (snd (product_log (embed p))) = p.
Proof.
  destruct p as [t|c|[l|s n]]; try reflexivity. cbn [embed]. rewrite log_iterator. cbn [snd erase it_single it_number]. now rewrite Nat2Z.id.
Qed.

(** ** the theorems *)

(** whether a logger shows the products of a processor *)
Definition shown (lg : logger) (k : nat) : Prop :=
  (lg_which lg = LogAll \/ (lg_which lg = LogLast /\ lg_last lg = true)) /\ lg_products lg = true /\
  (lg_processors lg = [] \/ In k (lg_processors lg)).
Lemma shows_shown lg k : shows lg k = true <-> shown lg k.
Proof.
  unfold shows, shown, is_active. rewrite !andb_true_iff, orb_true_iff, existsb_exists.
  assert (E : (exists x, In x (lg_processors lg) /\ Nat.eqb k x = true) <-> In k (lg_processors lg)).
  { split; [intros (x & H & E); apply Nat.eqb_eq in E; now subst|]. intros H. exists k. split; auto. apply Nat.eqb_refl. }
  rewrite E. destruct (lg_which lg), (lg_processors lg); intuition (try congruence).
Qed.

(** what is in the log about a result: the processor, the error, each product *)
Definition texts_of_result (e : event) : list string :=
  header_entry (system_name (fst e))
  :: (if string_dec (pr_error (snd e)) "" then [] else [error_entry (pr_error (snd e))])
  ++ flat_map (fun p => fst (product_log (embed p))) (pr_products (snd e)).
Inductive log_of (lg : logger) : list event -> list string -> Prop :=
| log_none : log_of lg [] []
| log_shown e events texts : shown lg (fst e) -> log_of lg events texts -> log_of lg (events ++ [e]) (texts ++ texts_of_result e)
| log_hidden e events texts : ~ shown lg (fst e) -> log_of lg events texts -> log_of lg (events ++ [e]) texts.

(** the answers, with or without a position in them *)
Definition same_answers (a : option answer) (s : option sres) : Prop :=
  match a, s with
  | Some (AList l), Some (SList l') => l = l'
  | Some (AIterator it), Some (SIter single n) => it_single it = single /\ it_number it = Z.of_nat n
  | None, None => True
  | _, _ => False
  end.

Lemma erased_answers p : (forall it, p = LIterator it -> (0 <= it_number it)%Z) -> same_answers (object_output p) (sys_output (erase p)).
Proof. destruct p as [t|c|l|it]; cbn; auto. intros H. specialize (H it eq_refl). split; [reflexivity|]. lia. Qed.

Definition same_settings (lg lg' : logger) : Prop :=
  lg_which lg = lg_which lg' /\ lg_last lg = lg_last lg' /\ lg_products lg = lg_products lg' /\ lg_processors lg = lg_processors lg'.
Lemma same_shows lg lg' k : same_settings lg lg' -> shows lg k = shows lg' k.
Proof. intros (E1 & E2 & E3 & E4). unfold shows, is_active. now rewrite E1, E2, E3, E4. Qed.

(** Every logger, system, text and state.  The system does what it does
    without logger; the log gets, in their order, the results of the processors
    that the logger shows. *)
Theorem C48_logging_only_adds_to_the_log :
  forall (V : Type) re_match kp kc ke fuel opt (sv : solver_if V) store text w lg,
    let '(o, (w1, events)) := ask_recorded re_match kp kc ke fuel opt sv store text (w, []) in
    let '(o', (w', lg')) := ask_logged re_match kp kc ke fuel opt sv store text (w, lg) in
    ask re_match kp kc ke fuel opt sv store text w = (o, w') /\
    same_outcome (related_output same_answers) o' o /\ w' = w1 /\ same_settings lg lg' /\
    exists texts, log_of lg events texts /\ lg_entries lg' = lg_entries lg ++ texts.
Proof.
  intros V re_match kp kc ke fuel opt sv store text w lg.
  pose (RL := fun lg' ev => same_settings lg lg' /\ exists texts, log_of lg ev texts /\ lg_entries lg' = lg_entries lg ++ texts).
  pose (RP := fun p1 p2 => erase p1 = p2 /\ forall it, p1 = LIterator it -> (0 <= it_number it)%Z).
  assert (Pos : forall p, (forall it, embed p = LIterator it -> (0 <= it_number it)%Z) /\ (forall it, snd (product_log (embed p)) = LIterator it -> (0 <= it_number it)%Z)).
  { intros [t|c|[l|s n]]; try (split; intros it E; discriminate). cbn [embed]. rewrite log_iterator. split; intros it [= <-]; cbn; lia. }
  pose proof (recorded_ask re_match kp kc ke fuel opt sv store text w []) as Hrec.
  pose proof (logged_recorded re_match kp kc ke fuel opt sv store text RL RP (fun p1 p2 H => proj1 H)) as H.
  specialize H with (RO := same_answers) (w := w) (lg := lg) (ev := []).
  assert (Hstep : forall k res lg1 ev, RL lg1 ev -> let '(res1, lg2) := add_process_result system_name product_log k (embed_result res) lg1 in
    related_result RP res1 res /\ RL lg2 (ev ++ [(k, res)])).
  { intros k res lg1 ev (Hs & texts & Ht & Ee). unfold add_process_result. rewrite <- (same_shows _ _ k Hs). destruct (shows lg k) eqn:Esh.
  - destruct (appended (result_entries system_name product_log k (embed_result res)) lg1) as (A1 & A2 & A3 & A4 & A5). split.
    + split; [|auto]. cbn. clear -Pos. induction (pr_products res) as [|p l IH]; cbn; constructor; auto. split; [apply log_erase|apply Pos].
    + destruct Hs as (S1 & S2 & S3 & S4). split; [unfold same_settings; rewrite A2, A3, A4, A5; auto|].
      exists (texts ++ texts_of_result (k, res)). split; [apply log_shown; auto; now apply shows_shown|]. rewrite A1, Ee, <- app_assoc. f_equal. f_equal.
      unfold result_entries, texts_of_result. cbn [fst snd pr_error pr_products embed_result]. f_equal. f_equal.
      * destruct (string_dec (pr_error res) "") as [->|N]; [reflexivity|]. apply String.eqb_neq in N. now rewrite N.
      * rewrite flat_map_concat_map, map_map, <- flat_map_concat_map. reflexivity.
  - split.
    + split; [|auto]. cbn. clear -Pos. induction (pr_products res) as [|p l IH]; cbn; constructor; auto. split; [apply erase_embed|apply Pos].
    + split; [exact Hs|]. exists texts. split; [|exact Ee]. apply log_hidden; auto. cbn. rewrite <- shows_shown. congruence. }
  specialize (H Hstep). destruct (ask_recorded re_match kp kc ke fuel opt sv store text (w, [])) as [o [w1 events]].
  destruct (ask_logged re_match kp kc ke fuel opt sv store text (w, lg)) as [o' [w' lg']].
  destruct H as (-> & (Hs & Ht) & Ho); [intros p1 p2 (<- & Hp); now apply erased_answers|split; [repeat split|exists []; split; [constructor|now rewrite app_nil_r]]|]. auto.
Qed.
Print Assumptions C48_logging_only_adds_to_the_log.

(** the log of a test that is not logged stays as it is *)
Theorem C48_nothing_is_logged_for_other_tests :
  forall (V : Type) re_match kp kc ke fuel opt (sv : solver_if V) store text w lg,
    (lg_which lg = LogNone \/ (lg_which lg = LogLast /\ lg_last lg = false) \/ lg_products lg = false) ->
    snd (snd (ask_logged re_match kp kc ke fuel opt sv store text (w, lg))) = lg.
Proof.
  intros V re_match kp kc ke fuel opt sv store text w lg Hlg.
  assert (N : forall k, shows lg k = false).
  { intros k. destruct (shows lg k) eqn:E; [|reflexivity]. apply shows_shown in E as (A & B & _). intuition congruence. }
  pose proof (logged_recorded re_match kp kc ke fuel opt sv store text (fun lg' _ => lg' = lg) (fun p1 p2 => erase p1 = p2) (fun p1 p2 H => H)) as H.
  assert (Hstep : forall k res lg1 (ev : list event), lg1 = lg -> let '(res1, lg2) := add_process_result system_name product_log k (embed_result res) lg1 in
    related_result (fun p1 p2 => erase p1 = p2) res1 res /\ lg2 = lg).
  { intros k res lg1 ev ->. unfold add_process_result. rewrite N. split; [|reflexivity].
    split; [|auto]. cbn. clear. induction (pr_products res) as [|p l IH]; cbn; constructor; auto. apply erase_embed. }
  specialize (H Hstep (fun _ _ => True) (fun _ _ _ => Logic.I) w lg [] eq_refl).
  destruct (ask_recorded re_match kp kc ke fuel opt sv store text (w, [])) as [o [w1 events]].
  destruct (ask_logged re_match kp kc ke fuel opt sv store text (w, lg)) as [o' [w' lg']]. now destruct H as (_ & -> & _).
Qed.
Print Assumptions C48_nothing_is_logged_for_other_tests.

(** A deviation: a [ResultIterator] that is logged has been read when the
    caller gets it, so that the answers are gone. *)
Theorem C48_logging_reads_iterators_refuted :
  forall (V : Type) re_match kp kc ke fuel opt (sv : solver_if V) store text w single n w',
    ask re_match kp kc ke fuel opt sv store text w = (Ok (Some (Some (SIter single n))), w') ->
    (exists it, ask_logged re_match kp kc ke fuel opt sv store text (w, null_logger) = (Ok (Some (Some (AIterator it))), (w', null_logger)) /\
       exists items, length items = n /\ forall limit, n < limit -> fst (it_list limit it) = Ok items) /\
    forall lg, (forall k, shown lg k) ->
      exists it lg', ask_logged re_match kp kc ke fuel opt sv store text (w, lg) = (Ok (Some (Some (AIterator it))), (w', lg')) /\
        forall limit, 0 < limit -> fst (it_list limit it) = Ok [].
Proof.
  intros V re_match kp kc ke fuel opt sv store text w single n w' Ha.
  pose proof (recorded_ask re_match kp kc ke fuel opt sv store text w []) as Hrec. split.
  - pose proof (logged_recorded re_match kp kc ke fuel opt sv store text (fun lg' _ => lg' = null_logger) (fun p1 p2 => p1 = embed p2)) as H.
    assert (He : forall p1 p2, p1 = embed p2 -> erase p1 = p2) by (intros p1 p2 ->; apply erase_embed).
    assert (Hstep : forall k res lg1 (ev : list event), lg1 = null_logger -> let '(res1, lg2) := add_process_result system_name product_log k (embed_result res) lg1 in
      related_result (fun p1 p2 => p1 = embed p2) res1 res /\ lg2 = null_logger).
    { intros k res lg1 ev ->. split; [|reflexivity]. split; [|auto]. cbn. clear. induction (pr_products res) as [|p l IH]; cbn; constructor; auto. }
    assert (Hout : forall p1 p2, p1 = embed p2 -> (fun a s => forall s0, s = Some s0 -> a = object_output (embed (BindingsProduct s0))) (object_output p1) (sys_output p2)).
    { intros p1 p2 -> s0 E. destruct p2; try discriminate. injection E as ->. reflexivity. }
    specialize (H He Hstep _ Hout w null_logger [] eq_refl).
    destruct (ask_recorded re_match kp kc ke fuel opt sv store text (w, [])) as [o [w1 events]].
    destruct (ask_logged re_match kp kc ke fuel opt sv store text (w, null_logger)) as [o' [w2 lg']].
    rewrite Ha in Hrec. injection Hrec as <- <-. destruct H as (-> & -> & Ho). inversion Ho as [a b Hab E1 E2| |]; subst.
    destruct a as [a|]; cbn in Hab; [|contradiction]. rewrite (Hab _ eq_refl). cbn [embed object_output].
    exists (new_iterator single (Z.of_nat n)). split; [reflexivity|].
    destruct (C28_yields_announced_number single n) as (_ & items & it' & H1 & H2 & _). exists items. split; [exact H2|]. intros limit Hl. now rewrite H1.
  - intros lg Hlg.
    pose (RL := fun lg' (_ : list event) => same_settings lg lg').
    pose (RP := fun p1 p2 => erase p1 = p2 /\ forall it, p1 = LIterator it -> (0 <= it_number it)%Z /\ used_up it).
    pose proof (logged_recorded re_match kp kc ke fuel opt sv store text RL RP (fun p1 p2 H => proj1 H)) as H.
    assert (Hstep : forall k res lg1 ev, RL lg1 ev -> let '(res1, lg2) := add_process_result system_name product_log k (embed_result res) lg1 in
      related_result RP res1 res /\ RL lg2 (ev ++ [(k, res)])).
    { intros k res lg1 ev Hs. unfold add_process_result. rewrite <- (same_shows _ _ k Hs), (proj2 (shows_shown lg k) (Hlg k)).
      destruct (appended (result_entries system_name product_log k (embed_result res)) lg1) as (_ & A2 & A3 & A4 & A5). split.
      - split; [|auto]. cbn. clear. induction (pr_products res) as [|p l IH]; cbn; constructor; auto. split; [apply log_erase|].
        destruct p as [t|c|[l0|s0 n0]]; try (intros it E; discriminate). cbn [embed]. rewrite log_iterator. intros it [= <-]. split; [cbn; lia|]. apply past_end. cbn. lia.
      - destruct Hs as (S1 & S2 & S3 & S4). unfold RL, same_settings. rewrite A2, A3, A4, A5. auto. }
    assert (Hout : forall p1 p2, RP p1 p2 -> (fun a s => same_answers a s /\ forall it, a = Some (AIterator it) -> used_up it) (object_output p1) (sys_output p2)).
    { intros p1 p2 (<- & Hp). split; [apply erased_answers; apply Hp|]. destruct p1; intros it0 E; try discriminate. injection E as <-. now apply Hp. }
    specialize (H Hstep _ Hout w lg [] ltac:(repeat split)).
    destruct (ask_recorded re_match kp kc ke fuel opt sv store text (w, [])) as [o [w1 events]].
    destruct (ask_logged re_match kp kc ke fuel opt sv store text (w, lg)) as [o' [w2 lg']].
    rewrite Ha in Hrec. injection Hrec as <- <-. destruct H as (-> & _ & Ho). inversion Ho as [a b Hab E1 E2| |]; subst.
    destruct a as [a|]; cbn in Hab; [|contradiction]. destruct Hab as (Sa & Hu). destruct a as [[l|it]|]; try contradiction.
    exists it, lg'. split; [reflexivity|]. now apply Hu.
Qed.
Print Assumptions C48_logging_reads_iterators_refuted.

(** ** how the results of the executor are written *)

(** no quotes, backslashes, or characters that cannot be printed *)
Fixpoint plain (s : string) : Prop :=
  match s with
  | EmptyString => True
  | String c t => 32 <= nat_of_ascii c <= 126 /\ c <> "'"%char /\ c <> "\"%char /\ plain t
  end.
Lemma repr_plain_chars s : plain s -> repr_chars chr_quote s = s /\ str_contains chr_quote s = false.
Proof.
  induction s as [|c s IH]; [now split|]. intros (Hc & N1 & N2 & Hs). destruct (IH Hs) as (E1 & E2). cbn [repr_chars str_contains]. rewrite E1, E2. split.
  - assert (H : repr_char chr_quote c = String c ""); [|now rewrite H].
    unfold repr_char. apply Ascii.eqb_neq in N1, N2. change chr_quote with "'"%char. change chr_backslash with "\"%char. rewrite N1, N2. cbn [orb].
    cbv zeta. replace (Nat.eqb (nat_of_ascii c) 10) with false by (symmetry; apply Nat.eqb_neq; lia).
    replace (Nat.eqb (nat_of_ascii c) 13) with false by (symmetry; apply Nat.eqb_neq; lia).
    replace (Nat.eqb (nat_of_ascii c) 9) with false by (symmetry; apply Nat.eqb_neq; lia).
    replace (Nat.ltb (nat_of_ascii c) 32) with false by (symmetry; apply Nat.ltb_ge; lia).
    replace (Nat.leb 127 (nat_of_ascii c)) with false by (symmetry; apply Nat.leb_gt; lia). reflexivity.
  - apply Ascii.eqb_neq in N1. rewrite orb_false_r, Ascii.eqb_sym. exact N1.
Qed.
Lemma repr_plain s : plain s -> repr_str s = String "'" (s ++ "'")%string.
Proof. intros H. apply repr_plain_chars in H as (E1 & E2). unfold repr_str. rewrite E2. cbn [andb]. now rewrite E1. Qed.

(** an answer whose values are texts *)
Definition texts_bound (l : list (string * string)) : binding := map (fun ks => (fst ks, VStr (snd ks))) l.
Definition written_binding (l : list (string * string)) : string :=
  ("{" ++ join ", " (map (fun ks => "'" ++ fst ks ++ "': '" ++ snd ks ++ "'") l) ++ "}")%string.
Theorem C48_answers_as_logged : forall answers,
  (forall l k s, In l answers -> In (k, s) l -> plain k /\ plain s) ->
  fst (product_log (LBindings (map texts_bound answers))) = [plain_entry (join lf (map written_binding answers))].
Proof.
  intros answers H. cbn [product_log fst]. do 3 f_equal. rewrite map_map. apply map_ext_in. intros l Hl.
  unfold dict_str, texts_bound, written_binding. do 2 f_equal. f_equal. rewrite map_map. apply map_ext_in. intros [k s] Hks. cbn [fst snd py_repr].
  destruct (H l k s Hl Hks) as (Hk & Hs). rewrite !repr_plain by assumption.
  cbn [String.append]. rewrite app_assoc_s. reflexivity.
Qed.
Print Assumptions C48_answers_as_logged.
Example C48_answers_example :
  fst (product_log (LBindings (map texts_bound [[("$1", "ann lee"); ("$2", "cid")]; []]))) = [plain_entry ("{'$1': 'ann lee', '$2': 'cid'}" ++ lf ++ "{}")%string] /\
  plain "ann lee" /\ dict_str [("$1", S_ "O'Hara")] = "{'$1': ""O'Hara""}".
Proof. split; [reflexivity|]. split; [|reflexivity]. repeat (split; [cbn; lia|split; [discriminate|split; [discriminate|]]]). exact I. Qed.

(** ** what an entry looks like *)

(** what a terminal shows: the text without the codes of colours, which begin
    with an escape character and end with an m *)
Fixpoint on_screen (code : bool) (s : string) : string :=
  match s with
  | "" => ""
  | String c r =>
      if code then on_screen (negb (Ascii.eqb c "m")) r
      else if Nat.eqb (nat_of_ascii c) 27 then on_screen true r
      else String c (on_screen false r)
  end.
Fixpoint uncoloured (s : string) : Prop :=
  match s with "" => True | String c r => nat_of_ascii c <> 27 /\ uncoloured r end.

Lemma screen_plain s : forall r, uncoloured s -> on_screen false (s ++ r)%string = (s ++ on_screen false r)%string.
Proof.
  induction s as [|c s IH]; intros r H; [reflexivity|]. destruct H as [H1 H2]. cbn [append on_screen].
  apply Nat.eqb_neq in H1. rewrite H1, IH; auto.
Qed.
Lemma uncoloured_app a b : uncoloured a -> uncoloured b -> uncoloured (a ++ b)%string.
Proof. induction a as [|c a IH]; intros H1 H2; [exact H2|]. destruct H1. split; auto. Qed.
Lemma screen_all s : uncoloured s -> on_screen false s = s.
Proof. induction s as [|c s IH]; intros H; [reflexivity|]. destruct H as [H1 H2]. cbn [on_screen]. apply Nat.eqb_neq in H1. rewrite H1, IH; auto. Qed.
Lemma uncoloured_tildes n : uncoloured (repeat_text n "~").
Proof. induction n as [|n IH]; [exact I|]. split; [discriminate|exact IH]. Qed.
Lemma uncoloured_number n : uncoloured (nat_text n).
Proof.
  unfold nat_text. assert (H : forall c s, In c (list_ascii_of_string s) -> False \/ True) by auto. clear H.
  unfold repr_Z. assert (Hd : forall d, uncoloured (DecimalString.NilZero.string_of_uint d)).
  { assert (He : forall d, uncoloured (DecimalString.NilEmpty.string_of_uint d)) by (induction d; cbn; try split; auto; discriminate).
    intros d. unfold DecimalString.NilZero.string_of_uint. destruct d; try apply He. split; [discriminate|exact I]. }
  destruct (Z.to_int _); cbn; [apply Hd|split; [discriminate|apply Hd]].
Qed.
Lemma take_more a : forall n b, take (String.length a + n) (a ++ b)%string = (a ++ take n b)%string.
Proof. induction a as [|c a IH]; intros n b; [reflexivity|]. cbn. now rewrite IH. Qed.
Lemma uncoloured_take n : forall s, uncoloured s -> uncoloured (take n s).
Proof. induction n as [|n IH]; intros [|c s] H; cbn; auto; try exact I. destruct H. split; auto. Qed.

(** Each kind of entry is one line with its text; the separator has the number
    of the test in a line that is as wide as the terminal. *)
Theorem C48_entries_on_the_screen : forall s key val,
  uncoloured s -> uncoloured key -> uncoloured val ->
  on_screen false (plain_entry s) = (s ++ lf)%string /\
  on_screen false (header_entry s) = (s ++ lf)%string /\
  on_screen false (subheader_entry s) = (s ++ lf)%string /\
  on_screen false (comment_entry s) = (s ++ lf)%string /\
  on_screen false (error_entry s) = (s ++ lf)%string /\
  on_screen false (key_value_entry key val) = ("[" ++ key ++ "] " ++ val ++ lf)%string /\
  forall width number, 5 + String.length (nat_text number) <= width ->
    on_screen false (separator_entry width number)
    = (take width ("~~[ " ++ nat_text number ++ " ]" ++ repeat_text width "~") ++ lf)%string.
Proof.
  intros s key val Hs Hk Hv.
  assert (Hc : forall code, In code ["0"; "33"; "36"; "37"; "34"; "31"; "90"] -> forall r, on_screen false (color code ++ r)%string = on_screen false r).
  { intros code H r. repeat (destruct H as [<-|H]; [reflexivity|]). destruct H. }
  assert (Hl : on_screen false lf = lf) by reflexivity.
  unfold plain_entry, header_entry, subheader_entry, comment_entry, error_entry, key_value_entry, separator_entry.
  unfold NO_COLOR, HEADER_COLOR, SUBHEADER_COLOR, VALUE_COLOR, SEPARATOR_COLOR, KEY_COLOR, ERROR_COLOR, COMMENT_COLOR.
  split; [now rewrite screen_plain|].
  split; [rewrite Hc, screen_plain, Hc by (cbn; tauto); reflexivity|].
  split; [rewrite Hc, screen_plain, Hc by (cbn; tauto); reflexivity|].
  split; [rewrite Hc, screen_plain, Hc by (cbn; tauto); reflexivity|].
  split; [rewrite Hc, screen_plain, Hc by (cbn; tauto); reflexivity|].
  split.
  - rewrite Hc by (cbn; tauto). rewrite (screen_plain "[") by (split; [discriminate|exact I]). rewrite screen_plain by auto.
    rewrite (screen_plain "]") by (split; [discriminate|exact I]). rewrite Hc by (cbn; tauto).
    rewrite (screen_plain " ") by (split; [discriminate|exact I]). rewrite screen_plain by auto. reflexivity.
  - intros width number Hw.
    set (n := nat_text number) in *. set (tl := repeat_text width "~").
    assert (Hn : uncoloured n) by apply uncoloured_number.
    replace (width + String.length (color "33") + String.length (color "37") + String.length (color "33"))
      with (String.length (color "33") + (3 + (String.length (color "37") + (1 + (String.length n + (1 + (String.length (color "33") + (width - (5 + String.length n)))))))))
      by (unfold color; cbn [String.length append]; lia).
    rewrite take_more.
    change ("~~[" ++ color "37" ++ " " ++ n ++ " " ++ color "33" ++ "]" ++ tl)%string with (append "~~[" (color "37" ++ " " ++ n ++ " " ++ color "33" ++ "]" ++ tl)%string).
    change 3 with (String.length "~~[") at 1. rewrite take_more, take_more.
    change 1 with (String.length " ") at 1. rewrite take_more, take_more.
    change 1 with (String.length " ") at 1. rewrite take_more, take_more.
    assert (A3 : forall a b c : string, ((a ++ b) ++ c = a ++ b ++ c)%string) by (induction a as [|x a IH]; intros; cbn; [reflexivity|now rewrite IH]).
    rewrite !A3.
    rewrite Hc by (cbn; tauto). rewrite (screen_plain "~~[") by (repeat split; discriminate). rewrite Hc by (cbn; tauto).
    rewrite (screen_plain " ") by (repeat split; discriminate). rewrite (screen_plain n) by auto. rewrite (screen_plain " ") by (repeat split; discriminate).
    rewrite Hc by (cbn; tauto). rewrite screen_plain by (apply uncoloured_take; split; [discriminate|apply uncoloured_tildes]).
    rewrite Hc by (cbn; tauto). rewrite Hl.
    replace (take width ("~~[ " ++ n ++ " ]" ++ tl)%string)
      with (take (4 + (String.length n + (1 + (width - (5 + String.length n))))) (append "~~[ " (n ++ append " " ("]" ++ tl)))%string) by (f_equal; lia).
    change 4 with (String.length "~~[ "). rewrite take_more, take_more. change 1 with (String.length " ") at 1. rewrite take_more.
    rewrite !A3. reflexivity.
Qed.
Print Assumptions C48_entries_on_the_screen.
Example C48_screen_example :
  (on_screen false (separator_entry 20 7) = ("~~[ 7 ]~~~~~~~~~~~~~" ++ lf)%string) /\
  (on_screen false (key_value_entry "Human" "hello") = ("[Human] hello" ++ lf)%string) /\
  uncoloured "Composer" /\ (5 + String.length (nat_text 7) <= 20).
Proof. split; [reflexivity|]. split; [reflexivity|]. split; [repeat split; discriminate|]. cbn. lia. Qed.

(** ** which steps of the composition are logged *)

(** the step with this number differs from the one before it *)
Definition changed (steps : list (string * value)) (k : nat) : bool :=
  negb (py_eq (snd (nth k steps ("", VNone))) (match k with 0 => VNone | S j => snd (nth j steps ("", VNone)) end)).
Definition step_entries (step : string * value) : list string :=
  [subheader_entry (fst step); plain_entry (strip (format_value lf (snd step)))].

Lemma iteration_changed steps : forall prev before, py_eq prev before = true ->
  iteration_entries prev steps
  = flat_map (fun k => if negb (py_eq (snd (nth k steps ("", VNone))) (match k with 0 => before | S j => snd (nth j steps ("", VNone)) end))
                       then step_entries (nth k steps ("", VNone)) else []) (seq 0 (length steps)).
Proof.
  induction steps as [|[d v] steps IH]; intros prev before He; [reflexivity|].
  cbn [iteration_entries length seq flat_map nth fst snd].
  assert (E : py_eq v prev = py_eq v before).
  { destruct (py_eq v prev) eqn:E1, (py_eq v before) eqn:E2; auto.
    - rewrite <- E2. symmetry. eapply py_eq_trans; eauto.
    - rewrite <- E1. eapply py_eq_trans; eauto. now rewrite py_eq_sym. }
  rewrite <- E. f_equal; [now destruct (py_eq v prev)|].
  rewrite <- seq_shift, flat_map_concat_map, map_map, <- flat_map_concat_map.
  rewrite (IH _ v) by (destruct (py_eq v prev) eqn:E1; [now rewrite py_eq_sym|apply py_eq_refl]).
  apply flat_map_ext. intros [|k]; reflexivity.
Qed.

(** Of the steps of the composition and the optimizer those are logged that
    differ from the step before them, each one under its name. *)
Theorem C48_steps_that_change_are_logged : forall c,
  exists first, fst (product_log (LComposed c))
    = first ++ flat_map (fun k => if changed (p_iterations c) k then step_entries (nth k (p_iterations c) ("", VNone)) else [])
                        (seq 0 (length (p_iterations c))) /\
    first = [subheader_entry "Executable"; plain_entry (format_value lf (p_executable c));
             subheader_entry "Inferences"; plain_entry (format_value lf (VList (p_inferences c)));
             subheader_entry "Return variables"; plain_entry (join ", " (p_root_variables c))].
Proof.
  intros c. eexists. split; [|reflexivity]. cbn [product_log fst]. f_equal. apply (iteration_changed _ VNone VNone). reflexivity.
Qed.
Print Assumptions C48_steps_that_change_are_logged.
Example C48_steps_example :
  let steps := [("A", VList [VInt 1]); ("B", VList [VInt 2]); ("C", VList [VInt 2]); ("D", VList [VInt 1])] in
  map (changed steps) [0; 1; 2; 3] = [true; true; false; true].
Proof. reflexivity. Qed.

(** ** the text of the log *)

(** [str(logger)]: the entries in the order in which they were added, each one
    with a line feed after it *)
Theorem C48_text_of_the_log :
  logger_str new_logger = "" /\ logger_str null_logger = "" /\
  (forall s lg, logger_str (append_entry s lg) = (logger_str lg ++ s ++ String "010"%char "")%string).
Proof.
  split; [reflexivity|]. split; [reflexivity|]. intros s lg. unfold logger_str. cbn [append_entry lg_entries].
  rewrite map_app. generalize (map (fun e => (e ++ lf)%string) (lg_entries lg)). intros l. cbn [map].
  induction l as [|a l IH]; [reflexivity|]. destruct l as [|b l]; [reflexivity|].
  change (String.concat "" ((a :: b :: l) ++ [(s ++ lf)%string])) with (a ++ String.concat "" ((b :: l) ++ [(s ++ lf)%string]))%string.
  rewrite IH. change (String.concat "" (a :: b :: l)) with (a ++ String.concat "" (b :: l))%string. now rewrite str_app_assoc.
Qed.
Print Assumptions C48_text_of_the_log.

(** ** the white space around a text *)

Lemma text_rev_app s : forall acc, text_rev s acc = (text_rev s "" ++ acc)%string.
Proof.
  induction s as [|c s IH]; intros acc; [reflexivity|]. cbn. rewrite IH, (IH (String c "")). rewrite str_app_assoc. reflexivity.
Qed.
Lemma text_rev_concat a b : text_rev (a ++ b)%string "" = (text_rev b "" ++ text_rev a "")%string.
Proof.
  induction a as [|c a IH]; cbn; [now rewrite str_app_nil|]. rewrite text_rev_app, IH, (text_rev_app a (String c "")), str_app_assoc. reflexivity.
Qed.
Lemma text_rev_twice s : text_rev (text_rev s "") "" = s.
Proof. induction s as [|c s IH]; cbn; [reflexivity|]. rewrite (text_rev_app s (String c "")), text_rev_concat, IH. reflexivity. Qed.

Definition blank (s : string) : Prop := forall c, In c (list_ascii_of_string s) -> is_space c = true.
Lemma lstrip_spec s : exists a, s = (a ++ lstrip s)%string /\ blank a /\ (forall c r, lstrip s = String c r -> is_space c = false).
Proof.
  induction s as [|c s (a & E & Hb & Hc)]; [exists ""; repeat split; [intros ? []|discriminate]|].
  cbn [lstrip]. destruct (is_space c) eqn:Ec.
  - exists (String c a). split; [cbn; now rewrite <- E|]. split; [|exact Hc]. intros x [<-|Hx]; auto.
  - exists "". repeat split; [intros ? []|]. intros x r [= <- <-]. exact Ec.
Qed.
Lemma blank_rev a : blank a -> blank (text_rev a "").
Proof.
  induction a as [|c a IH]; intros H x Hx; [exact (H x Hx)|]. cbn in Hx. rewrite text_rev_app in Hx.
  assert (Happ : forall u v, list_ascii_of_string (u ++ v)%string = (list_ascii_of_string u ++ list_ascii_of_string v)%list)
    by (induction u as [|y u IHu]; intros v; cbn; [reflexivity|now rewrite IHu]).
  rewrite Happ, in_app_iff in Hx. destruct Hx as [Hx|[<-|[]]].
  - apply IH; auto. intros y Hy. apply H. now right.
  - apply H. now left.
Qed.

(** The text of a step is logged without the white space around it, and
    otherwise as it is. *)
Theorem C48_stripped : forall s, exists before after,
  s = (before ++ strip s ++ after)%string /\ blank before /\ blank after /\
  (forall c r, strip s = String c r -> is_space c = false) /\
  (forall c r, strip s = (r ++ String c "")%string -> is_space c = false).
Proof.
  intros s. destruct (lstrip_spec s) as (a & E & Ha & Hc). unfold strip. set (t := lstrip s) in *.
  destruct (lstrip_spec (text_rev t "")) as (b & F & Hb & Hd). set (u := lstrip (text_rev t "")) in *.
  assert (Et : t = (text_rev u "" ++ text_rev b "")%string).
  { rewrite <- (text_rev_twice t), F. apply text_rev_concat. }
  exists a, (text_rev b ""). split; [now rewrite <- Et|]. split; [exact Ha|]. split; [now apply blank_rev|]. split.
  - intros c r Er. apply (Hc c (r ++ text_rev b "")%string). rewrite Et, Er. reflexivity.
  - intros c r Er. apply (Hd c (text_rev r "")). rewrite <- (text_rev_twice u), Er, text_rev_concat. reflexivity.
Qed.
Print Assumptions C48_stripped.
Example C48_stripped_example : strip (lf ++ "  [('a', 1)] " ++ lf)%string = "[('a', 1)]".
Proof. reflexivity. Qed.

(** ** examples *)
Definition star_grammar : list crule := firstn 2 who_grammar ++ [noun_rule "star"].
Definition star_ask (k : nat) (lg : logger) :=
  ask_logged python_re FindOne TryFirst TryFirst 200 None (solver_at [core_module; iter_module "star" k] 10)
    (fun _ => ret tt) "who is a star" (mkWorld (grammar_rules star_grammar) 0 tt, lg).
Definition all_logged (processors : list nat) : logger := log_products processors (log_tests LogAll new_logger).
Definition unread (o : outcome (option (option answer))) : outcome (list string) :=
  match o with Ok (Some (Some (AIterator it))) => fst (it_list 10 it) | _ => Exn TypeErr end.

Example C48_iterator_hypotheses : shown (all_logged []) 1 /\ shown (all_logged []) 2 /\ shown (all_logged []) 3 /\
  fst (ask python_re FindOne TryFirst TryFirst 200 None (solver_at [core_module; iter_module "star" 3] 10)
    (fun _ => ret tt) "who is a star" (mkWorld (grammar_rules star_grammar) 0 tt)) = Ok (Some (Some (SIter (VList [VNone]) 3))).
Proof. repeat split; auto; vm_compute; reflexivity. Qed.
Example C48_iterator_example :
  unread (fst (star_ask 3 null_logger)) = Ok ["[None]1"; "[None]2"; "[None]3"] /\
  unread (fst (star_ask 3 (all_logged []))) = Ok [] /\
  unread (fst (star_ask 3 (all_logged [1; 2]))) = Ok ["[None]1"; "[None]2"; "[None]3"].
Proof. repeat split; vm_compute; reflexivity. Qed.

Definition who_logged (lg : logger) (text : string) :=
  ask_logged python_re FindOne TryFirst TryFirst 200 None (solver_at (model ex_lens ex_tables) 10)
    (fun _ => ret tt) text (mkWorld (grammar_rules who_grammar) 0 relatives, lg).
Definition entries_of {A B} (r : A * (B * logger)) : list string := lg_entries (snd (snd r)).
Example C48_log_example :
  fst (who_logged (all_logged [2; 3]) "who is a grandparent") = Ok (Some (Some (AList [[("$1", S_ "ann"); ("$2", S_ "cid")]]))) /\
  entries_of (who_logged (all_logged [3]) "who is a grandparent")
    = [header_entry "Executor"; plain_entry "{'$1': 'ann', '$2': 'cid'}"] /\
  entries_of (who_logged (all_logged []) "who is a uncle")
    = [header_entry "Parser"; error_entry "unknown_word"] /\
  entries_of (who_logged (all_logged [2]) "who is a uncle") = [] /\
  entries_of (who_logged (log_products [] new_logger) "who is a grandparent") = [] /\
  entries_of (who_logged (log_tests LogAll new_logger) "who is a grandparent") = [] /\
  length (entries_of (who_logged (set_last true (log_products [] new_logger)) "who is a grandparent")) = 13.
Proof. repeat split; vm_compute; reflexivity. Qed.
