(** * C90 (the text that is written), C99: what the user reads after a text was not understood *)

From Coq Require Import ZArith QArith String Ascii List Bool Arith Lia.
From Verif Require Import Py PyFacts Effects EffectsFacts Atoms Solver SolverProofs CoreModule CoreSpec CoreProofs SimpleDataSource
  Memory MemoryProofs Lexer Grammar GrammarParser Generator PropOutput WriterSpec WriterProofs
  Composer Pipeline PropPipeline Earley EarleyProofs7 PropParser QuestionSystem QuestionProofs PropSystem.
Import ListNotations.
Local Close Scope Q_scope.
Local Open Scope nat_scope.
Local Open Scope string_scope.
Local Open Scope list_scope.

(** ** C90 *)

(** Whatever the rules write is the output, and the buffer is empty then. *)
Theorem C90_the_output_is_what_the_rules_write :
  forall {W} (grammar : gindex (@wmean W)) slv (L : lens W sds_store) w v used w',
    writes grammar slv [] "s" [] false w v used w' ->
    exists n0, forall n, n0 <= n -> generate_output grammar slv L n w = (Ok v, lset L [] w').
Proof.
  intros W grammar slv L w v used w' H. apply (proj1 (writer_complete grammar slv)) in H as (n0 & H).
  exists n0. intros n Hn. unfold generate_output, bind. rewrite (H n Hn). reflexivity.
Qed.
Print Assumptions C90_the_output_is_what_the_rules_write.

(** ** /repo/richard/grammar/en_us_write.py *)
Definition sorry_syn : string := "s() -> 'Sorry, I don\'t understand'".
Definition no_sentence_syn : string := "s() -> 'No sentence given'".
Definition unknown_syn : string := "s() -> 'Could not understand:' text(E1)".
Definition sorry_cons : list constituent := [mkCons "Sorry, I don't understand" [] PWord false false].
Definition no_sentence_cons : list constituent := [mkCons "No sentence given" [] PWord false false].
Definition unknown_cons : list constituent :=
  [mkCons "Could not understand:" [] PWord false false; separator; mkCons "text" ["E1"] PRelation false false].
Definition s_cons : constituent := mkCons "s" [] PRelation false false.

Definition en_us_rule {W} (cons : list constituent) (cond : list value) : grule (@wmean W) :=
  new_rule s_cons cons (mkWMean (VList cond) None None) 0.
(** en_us_write.py 4-18 *)
Definition en_us_write {W} : gindex (@wmean W) := grammar_rules [
  en_us_rule sorry_cons [VTuple [VStr "output_type"; VStr "not_understood"]];
  en_us_rule no_sentence_cons [VTuple [VStr "output_type"; VStr "no_sentence"]];
  en_us_rule unknown_cons [VTuple [VStr "output_type"; VStr "unknown_word"]; VTuple [VStr "output_unknown_word"; VVar "E1"]]].

(** the syntax is what the grammar parser makes of the file *)
Lemma en_us_syntax :
  parse_syntax true sorry_syn = Ok (s_cons, sorry_cons) /\
  parse_syntax true no_sentence_syn = Ok (s_cons, no_sentence_cons) /\
  parse_syntax true unknown_syn = Ok (s_cons, unknown_cons).
Proof. repeat split; vm_compute; reflexivity. Qed.

(** ** C99 *)
Section Reading.
  Context {W : Type}.
  Variable L : lens W sds_store.
  Hypothesis HL : lens_ok L.
  Variables ms1 ms2 : list (modul W).
  Hypothesis Hs : sole_buffer ms1 ms2.
  Notation mods := (reporting_mods L ms1 ms2).

  (** the texts in a relation with one column, oldest first *)
  Definition holds (t c : string) (w : W) (l : list string) : Prop :=
    sds_get t (lget L w) = (match l with [] => None | _ => Some (map (fun s => [(c, VStr s)]) l) end).

  Lemma held_rows c e l : sds_rows [(c, VStr e)] [c] (map (fun s => [(c, VStr s)]) l) =
    Ok (map (fun s => [VStr s]) (filter (fun x => String.eqb x e) l)).
  Proof.
    induction l as [|x l IH]; [reflexivity|]. cbn [map sds_rows]. unfold sds_record_ok. cbn [forallb fst snd bget].
    rewrite String.eqb_refl. cbn [py_eq andb filter]. destruct (String.eqb x e); cbn [andb]; [|exact IH].
    cbn [sds_row bget]. rewrite String.eqb_refl. rewrite IH. reflexivity.
  Qed.
  Lemma all_rows c l : sds_rows [] [c] (map (fun s => [(c, VStr s)]) l) = Ok (map (fun s => [VStr s]) l).
  Proof.
    induction l as [|x l IH]; [reflexivity|]. cbn [map sds_rows sds_record_ok forallb sds_row bget].
    rewrite String.eqb_refl. now rewrite IH.
  Qed.
  Lemma select_text t c w l e : holds t c w l ->
    buffer_select L t [c] [VStr e] w = (Ok (map (fun s => [VStr s]) (filter (fun x => String.eqb x e) l)), w).
  Proof.
    intros H. unfold buffer_select, bind. cbn [get]. unfold sds_select. rewrite H. destruct l as [|x l]; [reflexivity|].
    change (create_dict [c] [VStr e]) with [(c, VStr e)]. now rewrite held_rows.
  Qed.
  Lemma select_any t c w l : holds t c w l ->
    buffer_select L t [c] [VNone] w = (Ok (map (fun s => [VStr s]) l), w).
  Proof.
    intros H. unfold buffer_select, bind. cbn [get]. unfold sds_select. rewrite H. destruct l as [|x l]; [reflexivity|].
    change (create_dict [c] [VNone]) with (@nil (string * value)). now rewrite all_rows.
  Qed.

  Lemma find_type w : find_relations mods w "output_type" =
    [memory_relation (buffer_select L) (buffer_insert L) "output_type" ["type"]].
  Proof. exact (find_output L ms1 ms2 w "type" Hs). Qed.
  Lemma find_word w : find_relations mods w "output_unknown_word" =
    [memory_relation (buffer_select L) (buffer_insert L) "output_unknown_word" ["word"]].
  Proof. exact (find_output L ms1 ms2 w "unknown_word" Hs). Qed.

  Lemma same_rows s l : forall acc, (acc = [] \/ acc = [VList [VStr s]]) ->
    fold_left add_row (map (fun x => VList [VStr x]) (filter (fun x => String.eqb x s) l)) acc
    = if existsb (String.eqb s) l then [VList [VStr s]] else acc.
  Proof.
    induction l as [|x l IH]; intros acc Ha; [reflexivity|].
    cbn [filter existsb]. rewrite (String.eqb_sym s x). destruct (String.eqb_spec x s) as [->|Hn].
    - cbn [map fold_left orb]. assert (E : add_row acc (VList [VStr s]) = [VList [VStr s]]).
      { destruct Ha as [-> | ->]; [reflexivity|]. unfold add_row. cbn [existsb]. rewrite String.eqb_refl. reflexivity. }
      rewrite E, IH by auto. destruct (existsb (String.eqb s) l); reflexivity.
    - cbn [orb]. apply IH. exact Ha.
  Qed.

  Lemma ask_type n e b w types : holds "output_type" "type" w types ->
    solve mods (S n) (VList [VTuple [VStr "output_type"; VStr e]]) b w =
    (Ok (SList (if existsb (String.eqb e) types then [b] else [])), w).
  Proof.
    intros H. rewrite (single_solve mods n "output_type" _ [VStr e] b w (find_type w)) by discriminate.
    cbn [memory_relation r_query r_pred r_cols]. unfold memory_query.
    unfold bind at 1. unfold bind at 1. cbn [db_values map db_value c_pred c_cols].
    rewrite (select_text _ _ _ _ e H). cbn [ret]. rewrite map_map. unfold finish. rewrite same_rows by auto.
    destruct (existsb (String.eqb e) types); [|reflexivity].
    cbn. unfold create_results. cbn. unfold bind. cbn. rewrite String.eqb_refl. reflexivity.
  Qed.

  Lemma rows_head rows : forall x acc, exists more, fold_left add_row rows (x :: acc) = x :: more.
  Proof.
    induction rows as [|r rows IH]; intros x acc; [exists acc; reflexivity|]. cbn [fold_left].
    assert (exists m, add_row (x :: acc) r = x :: m) as (m & ->); [|apply IH].
    unfold add_row. destruct (existsb _ _); cbn [app]; eauto.
  Qed.
  Lemma rows_texts l : forall acc, (forall r, In r acc -> exists s, r = VList [VStr s]) ->
    forall r, In r (fold_left add_row (map (fun x => VList [VStr x]) l) acc) -> exists s, r = VList [VStr s].
  Proof.
    induction l as [|x l IH]; intros acc Ha r Hr; cbn [map fold_left] in Hr; [auto|].
    eapply IH; [|exact Hr]. intros r' H'. unfold add_row in H'. destruct (existsb _ acc); [auto|].
    apply in_app_iff in H' as [H'|[<-|[]]]; eauto.
  Qed.
  Lemma created x rows : forall acc (w : W), (forall r, In r rows -> exists s, r = VList [VStr s]) ->
    exists more, foldM (fun results v => bind (match_args v [] 0 [VVar x] [] false)
      (fun rc => let '(result, conflict) := rc in if conflict : bool then ret results else ret (results ++ [result]))) acc rows w
      = (Ok (acc ++ more), w).
  Proof.
    induction rows as [|r rows IH]; intros acc w H; [exists []; cbn; now rewrite app_nil_r|].
    destruct (H r (or_introl eq_refl)) as (s & ->). cbn [foldM].
    destruct (IH (acc ++ [[(x, VStr s)]]) w) as (more & E); [intros; apply H; now right|].
    exists ([(x, VStr s)] :: more). rewrite (bind_ok_intro _ _ w (acc ++ [[(x, VStr s)]]) w) by reflexivity. rewrite E. now rewrite <- app_assoc.
  Qed.

  Lemma ask_word n w words : holds "output_unknown_word" "word" w words ->
    exists more, solve mods (S n) (VList [VTuple [VStr "output_unknown_word"; VVar "E1"]]) [] w =
      (Ok (SList (match words with [] => [] | u :: _ => [("E1", VStr u)] :: more end)), w).
  Proof.
    intros H. rewrite (single_solve mods n "output_unknown_word" _ [VVar "E1"] [] w (find_word w)) by discriminate.
    cbn [memory_relation r_query r_pred r_cols]. unfold memory_query.
    unfold bind at 1. unfold bind at 1. cbn [db_values map db_value c_pred c_cols bget].
    rewrite (select_any _ _ _ _ H). cbn [ret]. rewrite map_map. unfold finish.
    destruct words as [|u words]; [exists []; reflexivity|].
    pose proof (rows_texts (u :: words) [] (fun r (F : In r []) => match F with end)) as T.
    cbn [map fold_left] in T |- *. change (add_row [] (VList [VStr u])) with [VList [VStr u]] in T |- *.
    destruct (rows_head (map (fun x => VList [VStr x]) words) (VList [VStr u]) []) as (more & E).
    rewrite E in *.
    destruct (created "E1" more [[("E1", VStr u)]] w) as (more' & E'); [intros; apply T; now right|].
    exists more'. unfold bind at 1. cbn [check_first_row length Nat.eqb ret].
    unfold create_results. unfold bind at 1. cbn [foldM]. rewrite (bind_ok_intro _ _ w [[("E1", VStr u)]] w) by reflexivity. cbn [app] in E' |- *. rewrite E'. reflexivity.
  Qed.
  Lemma ask_both n w types words :
    holds "output_type" "type" w types -> holds "output_unknown_word" "word" w words ->
    exists more, solve mods (S n) (VList [VTuple [VStr "output_type"; VStr "unknown_word"]; VTuple [VStr "output_unknown_word"; VVar "E1"]]) [] w =
      (Ok (SList (if existsb (String.eqb "unknown_word") types
                  then match words with [] => [] | u :: _ => [("E1", VStr u)] :: more end else [])), w).
  Proof.
    intros Ht Hw. pose proof (ask_type n "unknown_word" [] w types Ht) as E1. destruct (ask_word n w words Hw) as (more & E2).
    unfold solve in *. cbn [solver_at sv_solve] in *. unfold solve_F in *. cbn [solve_atoms] in *.
    unfold bind at 1. rewrite E1. destruct (existsb (String.eqb "unknown_word") types); [|exists []; reflexivity].
    unfold bind at 1. cbn [sres_items ret foldM]. unfold bind at 1. unfold bind at 1. unfold bind at 1. rewrite E2. unfold bind at 1. cbn [sres_items ret].
    destruct words as [|u words]; [exists []; reflexivity|]. cbn [fold_left].
    assert (G : forall l x acc, exists m, fold_left add_binding l (x :: acc) = x :: m).
    { induction l as [|y l IH]; intros x acc; [exists acc; reflexivity|]. cbn [fold_left].
      assert (exists m, add_binding (x :: acc) y = x :: m) as (m & ->); [|apply IH].
      unfold add_binding. destruct (dict_in y (x :: acc)); cbn [app]; eauto. }
    change (add_binding [] [("E1", VStr u)]) with [[("E1", VStr u)]]. destruct (G more [("E1", VStr u)] []) as (m & Em).
    exists m. exact (f_equal (fun z => (Ok (SList z), w)) Em).
  Qed.

  (** the rules of the grammar that can match *)
  Lemma en_us_rules : find_rules (@en_us_write W) "s" 0 = [
    en_us_rule sorry_cons [VTuple [VStr "output_type"; VStr "not_understood"]];
    en_us_rule no_sentence_cons [VTuple [VStr "output_type"; VStr "no_sentence"]];
    en_us_rule unknown_cons [VTuple [VStr "output_type"; VStr "unknown_word"]; VTuple [VStr "output_unknown_word"; VVar "E1"]]].
  Proof. reflexivity. Qed.

  Lemma not_in e types : ~ In e types -> existsb (String.eqb e) types = false.
  Proof.
    intros H. destruct (existsb (String.eqb e) types) eqn:E; [|reflexivity].
    apply existsb_exists in E as (x & Hx & E). apply String.eqb_eq in E. subst. contradiction.
  Qed.
  Lemma is_in e types : In e types -> existsb (String.eqb e) types = true.
  Proof. intros H. apply existsb_exists. exists e. split; [exact H|apply String.eqb_refl]. Qed.

  Lemma conditional cons cond : cond <> [] -> ~ unconditional (@en_us_rule W cons cond).
  Proof. intros H [E|E]; cbn in E; [discriminate|]. injection E. exact H. Qed.
  Lemma type_matches n cons e types w : holds "output_type" "type" w types -> In e types ->
    matches (solve mods (S n)) [] w (en_us_rule cons [VTuple [VStr "output_type"; VStr e]]) [] w.
  Proof.
    intros H Hi. right. split; [apply conditional; discriminate|]. exists []. cbn [en_us_rule new_rule g_mean w_if].
    rewrite (ask_type n e _ w types H), (is_in _ _ Hi). reflexivity.
  Qed.
  Lemma type_differs n cons e types w : holds "output_type" "type" w types -> ~ In e types ->
    does_not_match (solve mods (S n)) [] w (en_us_rule cons [VTuple [VStr "output_type"; VStr e]]).
  Proof.
    intros H Hi. split; [apply conditional; discriminate|]. cbn [en_us_rule new_rule g_mean w_if].
    rewrite (ask_type n e _ w types H), (not_in _ _ Hi). reflexivity.
  Qed.

  Lemma write_fixed n pre post s cons e types w : holds "output_type" "type" w types -> In e types ->
    cons = [mkCons s [] PWord false false] ->
    find_rules (@en_us_write W) "s" 0 = pre ++ en_us_rule cons [VTuple [VStr "output_type"; VStr e]] :: post ->
    Forall (does_not_match (solve mods (S n)) [] w) pre ->
    exists used, writes en_us_write (solve mods (S n)) [] "s" [] false w (VStr s) used w.
  Proof.
    intros H Hi -> Hr Hp. eexists. eapply wr_rule with (vs := map VStr [s]) (v := VStr (joined [s])).
    - exists pre, post. split; [exact Hr|]. split; [exact Hp|]. split; [eapply type_matches; eauto|]. intros [].
    - eapply wa_cons; [apply wo_word; reflexivity|constructor].
    - constructor.
    - discriminate.
    - intros _. split; [|reflexivity]. cbn. f_equal. clear. induction s; cbn; congruence.
  Qed.

  (** what is written, for any buffer *)
  Lemma en_us_writes n w types words :
    holds "output_type" "type" w types -> holds "output_unknown_word" "word" w words ->
    (In "not_understood" types -> exists used,
       writes en_us_write (solve mods (S n)) [] "s" [] false w (VStr "Sorry, I don't understand") used w) /\
    (~ In "not_understood" types -> In "no_sentence" types -> exists used,
       writes en_us_write (solve mods (S n)) [] "s" [] false w (VStr "No sentence given") used w) /\
    (~ In "not_understood" types -> ~ In "no_sentence" types -> In "unknown_word" types ->
       forall u more, words = u :: more -> exists used,
       writes en_us_write (solve mods (S n)) [] "s" [] false w (VStr (append "Could not understand: " u)) used w) /\
    (~ In "not_understood" types -> ~ In "no_sentence" types -> ~ In "unknown_word" types \/ words = [] ->
       Forall (does_not_match (solve mods (S n)) [] w) (find_rules (@en_us_write W) "s" 0)).
  Proof.
    intros Ht Hw. destruct (ask_both n w types words Ht Hw) as (more & E). split; [|split; [|split]].
    - intros Hi. eapply (write_fixed n [] (tl (find_rules (@en_us_write W) "s" 0)) _ sorry_cons "not_understood" types w Ht Hi);
        [reflexivity|reflexivity|constructor].
    - intros Hn Hi. eapply (write_fixed n [en_us_rule sorry_cons [VTuple [VStr "output_type"; VStr "not_understood"]]]
        (tl (tl (find_rules (@en_us_write W) "s" 0))) _ no_sentence_cons "no_sentence" types w Ht Hi); [reflexivity|reflexivity|].
      constructor; [|constructor]. eapply type_differs; eauto.
    - intros N1 N2 Hi u rest ->. eexists. eapply wr_rule with (vs := map VStr ["Could not understand:"; " "; py_str (VStr u)]).
      + exists [en_us_rule sorry_cons [VTuple [VStr "output_type"; VStr "not_understood"]];
                en_us_rule no_sentence_cons [VTuple [VStr "output_type"; VStr "no_sentence"]]], [].
        split; [reflexivity|]. split; [constructor; [eapply type_differs; eauto|constructor; [eapply type_differs; eauto|constructor]]|].
        split; [|intros []]. right. split; [apply conditional; discriminate|]. exists more. cbn [en_us_rule new_rule g_mean w_if].
        change (argument_binding _ []) with (@nil (string * value)). rewrite E, (is_in _ _ Hi). reflexivity.
      + eapply wa_cons; [apply wo_word; reflexivity|]. eapply wa_cons; [apply wo_word; reflexivity|].
        eapply wa_cons; [eapply wo_text; try reflexivity; [discriminate|left; reflexivity]|constructor].
      + constructor.
      + discriminate.
      + intros _. split; [|reflexivity]. cbn. do 23 f_equal. clear. induction u; cbn; congruence.
    - intros N1 N2 Hn. rewrite en_us_rules. constructor; [eapply type_differs; eauto|].
      constructor; [eapply type_differs; eauto|]. constructor; [|constructor]. split; [apply conditional; discriminate|].
      cbn [en_us_rule new_rule g_mean w_if]. change (argument_binding _ []) with (@nil (string * value)). rewrite E.
      destruct Hn as [Hn| ->]; [now rewrite (not_in _ _ Hn)|]. destruct (existsb _ types); reflexivity.
  Qed.
End Reading.

(** Whatever errors are in the buffer, read with the library's grammar: a text
    that was not understood comes first, then a missing sentence, then the
    first unknown word; otherwise there is no output.  Reading empties the
    buffer. *)
Theorem C99_what_is_read :
  forall {W} (L : lens W sds_store) ms1 ms2 n w types words,
    sole_buffer ms1 ms2 ->
    holds L "output_type" "type" w types -> holds L "output_unknown_word" "word" w words ->
    exists k, forall m, k <= m ->
    let read := generate_output en_us_write (solve (reporting_mods L ms1 ms2) (S n)) L m w in
    (In "not_understood" types -> read = (Ok (VStr "Sorry, I don't understand"), lset L [] w)) /\
    (~ In "not_understood" types -> In "no_sentence" types -> read = (Ok (VStr "No sentence given"), lset L [] w)) /\
    (~ In "not_understood" types -> ~ In "no_sentence" types -> In "unknown_word" types ->
       forall u more, words = u :: more -> read = (Ok (VStr (append "Could not understand: " u)), lset L [] w)) /\
    (~ In "not_understood" types -> ~ In "no_sentence" types -> ~ In "unknown_word" types \/ words = [] ->
       read = (Exn (Raise "No rule found"), w)).
Proof.
  intros W L ms1 ms2 n w types words Hs Ht Hw.
  destruct (en_us_writes L ms1 ms2 Hs n w types words Ht Hw) as (A & B & C & D).
  assert (R : forall v used, writes en_us_write (solve (reporting_mods L ms1 ms2) (S n)) [] "s" [] false w v used w ->
    exists k, forall m, k <= m -> generate_output en_us_write (solve (reporting_mods L ms1 ms2) (S n)) L m w = (Ok v, lset L [] w)).
  { intros v used H. eapply C90_the_output_is_what_the_rules_write; eauto. }
  destruct (in_dec string_dec "not_understood" types) as [I1|I1].
  { destruct (A I1) as (used & H). destruct (R _ _ H) as (k & Hk). exists k. intros m Hm read. unfold read. rewrite (Hk m Hm).
    repeat split; intros; auto; contradiction. }
  destruct (in_dec string_dec "no_sentence" types) as [I2|I2].
  { destruct (B I1 I2) as (used & H). destruct (R _ _ H) as (k & Hk). exists k. intros m Hm read. unfold read. rewrite (Hk m Hm).
    repeat split; intros; auto; contradiction. }
  assert (None_ : ~ In "unknown_word" types \/ words = [] -> exists k, forall m, k <= m ->
    generate_output en_us_write (solve (reporting_mods L ms1 ms2) (S n)) L m w = (Exn (Raise "No rule found"), w)).
  { intros H. exists 1. intros [|m] Hm; [lia|]. unfold generate_output, bind at 1.
    rewrite (C90_no_matching_rule en_us_write (solve (reporting_mods L ms1 ms2) (S n)) m [] "s" [] false w (D I1 I2 H)). reflexivity. }
  destruct (in_dec string_dec "unknown_word" types) as [I3|I3].
  - destruct words as [|u words].
    + destruct (None_ (or_intror eq_refl)) as (k & Hk). exists k. intros m Hm read. unfold read. rewrite (Hk m Hm).
      split; [contradiction|]. split; [contradiction|]. split; [discriminate|auto].
    + destruct (C I1 I2 I3 u words eq_refl) as (used & H). destruct (R _ _ H) as (k & Hk). exists k. intros m Hm read.
      unfold read. rewrite (Hk m Hm). split; [contradiction|]. split; [contradiction|]. split.
      * intros _ _ _ u' more' [= <- _]. reflexivity.
      * intros _ _ [H'|H']; [contradiction|discriminate].
  - destruct (None_ (or_introl I3)) as (k & Hk). exists k. intros m Hm read. unfold read. rewrite (Hk m Hm).
    split; [contradiction|]. split; [contradiction|]. split; [contradiction|auto].
Qed.
Print Assumptions C99_what_is_read.

(** ** from the text to the report *)
Section Reports.
  Context {V : Type}.
  Variable L : lens V sds_store.
  Hypothesis HL : lens_ok L.
  Variables ms1 ms2 : list (modul V).
  Hypothesis Hs : sole_buffer ms1 ms2.
  Notation mods := (reporting_mods L ms1 ms2).

  Definition failing (e : string) (args : list value) : list (@block V unit) :=
    [mkBlock FindOne (mkProc 1 (fun _ => ret (Pipeline.mkPResult [] e args)))].

  Lemma stored_word n u w :
    solver_store mods (S (S n)) [VTuple [VStr "output_type"; VStr "unknown_word"]; VTuple [VStr "output_unknown_word"; VStr u]] w =
    (Ok tt, lset L (sds_insert "output_unknown_word" ["word"] [VStr u] (sds_insert "output_type" ["type"] [VStr "unknown_word"] (lget L w))) w).
  Proof.
    pose proof (C55_known_errors_are_reported (fun x : unit => x) L ms1 ms2 n (failing "unknown_word" [VStr u]) w (mkRequest "" [] []) w
      (mkRequest "" [] []) "unknown_word" [VStr u] ["word"] Hs HL eq_refl) as H.
    assert (H1 : failing "unknown_word" [VStr u] <> []) by discriminate.
    assert (H2 : "unknown_word" <> "") by discriminate.
    specialize (H H1 H2). assert (H3 : In ("unknown_word", ["word"]) reported_with) by (cbn; auto 10).
    specialize (H H3). assert (H4 : forall a, In a [VStr u] -> atom_variables a = []) by (intros a [<-|[]]; reflexivity). specialize (H H4).
    unfold enter in H. cbn [failing last_id rev app] in H. unfold bind at 1 in H.
    cbn -[solver_store sds_insert] in H. unfold bind in H. cbn -[solver_store sds_insert] in H.
    change ("output_" ++ "unknown_word")%string with "output_unknown_word" in H.
    destruct (solver_store mods (S (S n)) _ w) as [[[]| |] w2]; unfold ret in H; cbn in H; congruence.
  Qed.
  Lemma stored_type n e w : e = "not_understood" \/ e = "no_sentence" ->
    exists m, solver_store mods (S (S n)) [VTuple [VStr "output_type"; VStr e]; VTuple [VStr (append "output_" e)]] w =
    (Exn (Raise m), lset L (sds_insert "output_type" ["type"] [VStr e] (lget L w)) w).
  Proof.
    intros He.
    assert (Hb : process_blocks unit (failing e []) (w, mkRequest "" [] []) = (Ok (mkBResult e []), (w, mkRequest "" [] [])))
      by (destruct He as [-> | ->]; reflexivity).
    pose proof (C55_other_errors_raise_after_storing_the_type_refuted (fun x : unit => x) L ms1 ms2 n (failing e []) w (mkRequest "" [] []) w
      (mkRequest "" [] []) e [] Hs Hb) as H.
    match type of H with ?A -> ?B -> ?C -> _ => assert (HA : A); [|assert (HB : B); [|assert (HC : C); [|specialize (H HA HB HC)]]] end.
    - discriminate.
    - destruct He as [-> | ->]; discriminate.
    - intros cols I. destruct He as [-> | ->]; cbn in I; intuition discriminate.
    - exists (append "No relation called 'output_" (append e "' available in the model")). unfold enter in H. cbn [failing last_id rev app] in H. unfold bind at 1 in H. rewrite Hb in H.
      unfold is_success in H. cbn [br_error] in H.
      assert (E : String.eqb e "" = false) by (destruct He as [-> | ->]; reflexivity). rewrite E in H.
      unfold bind in H. cbn [fst snd] in H. unfold error_atoms in H. cbn [br_error br_args] in H.
      destruct (solver_store mods (S (S n)) _ w) as [[[]| |] w2]; unfold ret in H; cbn in H; inversion H; reflexivity.
  Qed.
End Reports.

(** The buffer of errors is empty before a text is entered, as it is at the
    start and after each output that was read (C41).  Then a text with an
    unknown word is answered by a report of what follows the part that was
    understood; the model is as it was. *)
Theorem C99_unknown_words_are_reported :
  forall {V} (L : lens V sds_store) ms1 ms2 re_match fuel opt (sv : solver_if V) kp kc ke n text (w : world V) g res,
    lens_ok L -> sole_buffer ms1 ms2 -> kp <> FindAll ->
    lget L (sw_model w) = [] ->
    parse_with re_match fuel text (sw_grammar w) = (Ok res, g) -> Earley.pr_error res = "unknown_word" ->
    exists ch m,
      build_chart scanned gamma_meaning re_match fuel (add_delta_rules delta_meaning (sw_grammar w)) (normalize text) = Ok ch /\
      furthest ch m /\ m < String.length (normalize text) /\
      exists w', ask re_match kp kc ke fuel opt sv (solver_store (reporting_mods L ms1 ms2) (S (S n))) text w = (Ok None, w') /\
      exists k, forall j, k <= j ->
        generate_output en_us_write (solve (reporting_mods L ms1 ms2) (S n)) L j (sw_model w') =
        (Ok (VStr (append "Could not understand: " (append (take 9 (drop m (normalize text))) " ..."))), sw_model w).
Proof.
  intros V L ms1 ms2 re_match fuel opt sv kp kc ke n text w g res HL Hs Hk He Hp Hr.
  pose proof (C66_errors_classify_the_failure scanned delta_meaning gamma_meaning re_match fuel text (sw_grammar w) res) as C.
  rewrite Hp in C. specialize (C eq_refl). destruct C as [C1 C2].
  assert (Hn : Earley.pr_products res = []).
  { destruct (Earley.pr_products res) as [|t ts]; [reflexivity|]. destruct C1 as [E _]; [discriminate|]. congruence. }
  destruct (C2 Hn) as (ch & m & Hb & Hf & D1 & D2 & D3). exists ch, m. split; [exact Hb|]. split; [exact Hf|].
  assert (Hm : m < String.length (normalize text)).
  { destruct (Nat.lt_ge_cases m (String.length (normalize text))) as [H|H]; [exact H|].
    destruct (string_dec (normalize text) "") as [E|E]; [destruct (D2 H E)|destruct (D3 H E)]; congruence. }
  split; [exact Hm|]. destruct (D1 Hm) as [_ Ha].
  destruct (C98_no_tree_no_effect_but_output V re_match fuel opt sv (solver_store (reporting_mods L ms1 ms2) (S (S n))) kp kc ke text w g res Hk Hp Hn)
    as [_ E]. rewrite E, Hr, Ha. cbn [map]. change (append "output_" "unknown_word") with "output_unknown_word".
  rewrite (stored_word L HL ms1 ms2 Hs). eexists. split; [reflexivity|]. cbn [sw_model].
  set (u := append (take 9 _) _). rewrite He.
  set (v := lset L _ (sw_model w)).
  destruct (C99_what_is_read L ms1 ms2 n v ["unknown_word"] [u] Hs) as (k & Hk').
  - unfold holds, v. rewrite (lens_get_set _ HL). reflexivity.
  - unfold holds, v. rewrite (lens_get_set _ HL). reflexivity.
  - exists k. intros j Hj. destruct (Hk' j Hj) as (_ & _ & R & _).
    rewrite (R ltac:(cbn; intuition discriminate) ltac:(cbn; intuition discriminate) ltac:(cbn; auto) u [] eq_refl).
    f_equal. unfold v. rewrite (lens_set_set _ HL). rewrite <- He. apply (lens_set_get _ HL).
Qed.
Print Assumptions C99_unknown_words_are_reported.

(** A text of known words that is no sentence, and an empty text: [enter]
    raises.  The report can be read all the same. *)
Theorem C99_other_failures_raise_refuted :
  forall {V} (L : lens V sds_store) ms1 ms2 re_match fuel opt (sv : solver_if V) kp kc ke n text (w : world V) g res,
    lens_ok L -> sole_buffer ms1 ms2 -> kp <> FindAll ->
    lget L (sw_model w) = [] ->
    parse_with re_match fuel text (sw_grammar w) = (Ok res, g) -> Earley.pr_products res = [] ->
    Earley.pr_error res <> "unknown_word" ->
    exists e w', ask re_match kp kc ke fuel opt sv (solver_store (reporting_mods L ms1 ms2) (S (S n))) text w = (Exn e, w') /\
      exists k, forall j, k <= j ->
        generate_output en_us_write (solve (reporting_mods L ms1 ms2) (S n)) L j (sw_model w') =
        (Ok (VStr (if String.eqb (normalize text) "" then "No sentence given" else "Sorry, I don't understand")), sw_model w).
Proof.
  intros V L ms1 ms2 re_match fuel opt sv kp kc ke n text w g res HL Hs Hk He Hp Hn Hr.
  pose proof (C66_errors_classify_the_failure scanned delta_meaning gamma_meaning re_match fuel text (sw_grammar w) res) as C.
  rewrite Hp in C. specialize (C eq_refl). destruct C as [_ C2]. destruct (C2 Hn) as (ch & m & _ & _ & D1 & D2 & D3).
  assert (Hm : String.length (normalize text) <= m).
  { destruct (Nat.lt_ge_cases m (String.length (normalize text))) as [H|H]; [|exact H]. destruct (D1 H). contradiction. }
  destruct (C98_no_tree_no_effect_but_output V re_match fuel opt sv (solver_store (reporting_mods L ms1 ms2) (S (S n))) kp kc ke text w g res Hk Hp Hn)
    as [_ E].
  assert (T : Earley.pr_error res = (if String.eqb (normalize text) "" then "no_sentence" else "not_understood") /\ Earley.pr_args res = []).
  { destruct (String.eqb_spec (normalize text) "") as [E0|E0]; auto. }
  destruct T as [Te Ta]. rewrite Te, Ta in E. cbn [map] in E. set (err := if String.eqb (normalize text) "" then "no_sentence" else "not_understood") in *.
  destruct (stored_type L ms1 ms2 Hs n err (sw_model w)) as (msg & S1); [unfold err; destruct (String.eqb _ _); auto|].
  rewrite S1 in E. eexists. eexists. split; [exact E|]. cbn [sw_model].
  set (v := lset L _ (sw_model w)).
  destruct (C99_what_is_read L ms1 ms2 n v [err] [] Hs) as (k & Hk').
  - unfold holds, v. rewrite (lens_get_set _ HL), He. reflexivity.
  - unfold holds, v. rewrite (lens_get_set _ HL), He. reflexivity.
  - exists k. intros j Hj. destruct (Hk' j Hj) as (R1 & R2 & _ & _).
    assert (Ev : lset L [] v = sw_model w).
    { unfold v. rewrite (lens_set_set _ HL). rewrite <- He. apply (lens_set_get _ HL). }
    rewrite Ev in R1, R2. unfold err in R1, R2. destruct (String.eqb (normalize text) "").
    + apply R2; cbn; auto. intuition discriminate.
    + apply R1. cbn. auto.
Qed.
Print Assumptions C99_other_failures_raise_refuted.

(** When such an exception is caught and the report is not read, the reports
    on later texts are lost: the old one is read instead. *)
Theorem C99_an_unread_report_hides_later_ones_refuted :
  forall {W} (L : lens W sds_store) ms1 ms2 n u w,
    lens_ok L -> sole_buffer ms1 ms2 -> lget L w = [] ->
    exists m w1 w2,
      solver_store (reporting_mods L ms1 ms2) (S (S n)) [VTuple [VStr "output_type"; VStr "not_understood"]; VTuple [VStr "output_not_understood"]] w
        = (Exn (Raise m), w1) /\
      solver_store (reporting_mods L ms1 ms2) (S (S n)) [VTuple [VStr "output_type"; VStr "unknown_word"]; VTuple [VStr "output_unknown_word"; VStr u]] w1
        = (Ok tt, w2) /\
      exists k, forall j, k <= j ->
        generate_output en_us_write (solve (reporting_mods L ms1 ms2) (S n)) L j w2 = (Ok (VStr "Sorry, I don't understand"), w).
Proof.
  intros W L ms1 ms2 n u w HL Hs He.
  destruct (stored_type L ms1 ms2 Hs n "not_understood" w (or_introl eq_refl)) as (m & S1).
  exists m. eexists. eexists. split; [exact S1|]. split; [apply (stored_word L HL ms1 ms2 Hs)|].
  set (w1 := lset L _ w). set (w2 := lset L _ w1).
  destruct (C99_what_is_read L ms1 ms2 n w2 ["not_understood"; "unknown_word"] [u] Hs) as (k & Hk').
  - unfold holds, w2, w1. rewrite !(lens_get_set _ HL), He. reflexivity.
  - unfold holds, w2, w1. rewrite !(lens_get_set _ HL), He. reflexivity.
  - exists k. intros j Hj. destruct (Hk' j Hj) as (R1 & _).
    rewrite R1 by (cbn; auto). f_equal. unfold w2, w1. rewrite !(lens_set_set _ HL). rewrite <- He. apply (lens_set_get _ HL).
Qed.
Print Assumptions C99_an_unread_report_hides_later_ones_refuted.

(** the grammar of PropSystem.v with an output buffer only *)
Definition report_ask (text : string) (v : sds_store) :=
  ask python_re FindOne TryFirst TryFirst 200 None (solver_at (reporting_mods ex_L [] []) 5) (solver_store (reporting_mods ex_L [] []) 2)
    text (mkWorld (grammar_rules who_grammar) 0 v).
Definition report_read (v : sds_store) := generate_output en_us_write (solve (reporting_mods ex_L [] []) 1) ex_L 5 v.
Example C99_example :
  @sole_buffer sds_store [] [] /\ lens_ok ex_L /\
  (exists res g, parse_with python_re 200 "Who is a uncle" (grammar_rules who_grammar) = (Ok res, g) /\ Earley.pr_error res = "unknown_word") /\
  fst (report_read (sw_model (snd (report_ask "Who is a uncle" [])))) = Ok (VStr "Could not understand: uncle ...") /\
  (exists e, fst (report_ask "" []) = Exn e) /\
  fst (report_read (sw_model (snd (report_ask "" [])))) = Ok (VStr "No sentence given") /\
  fst (report_read (sw_model (snd (report_ask "who is a uncle" (sw_model (snd (report_ask "" []))))))) = Ok (VStr "No sentence given").
Proof.
  split; [intros m []|]. split; [split; reflexivity|]. split; [eexists; eexists; split; vm_compute; reflexivity|].
  split; [vm_compute; reflexivity|].
  split; [eexists; vm_compute; reflexivity|]. split; vm_compute; reflexivity.
Qed.
