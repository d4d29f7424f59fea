(** * Properties C30-C39, C42, C43: the data sources *)

From Coq Require Import ZArith QArith String Ascii List Bool Lia Arith Sorted.
From Verif Require Import Py PyFacts ReprProofs Effects EffectsFacts InferenceModule DataSpec SimpleDataSource SimpleDataProofs
  OrderedSetProofs Sql SqliteDataSource SqliteProofs SqliteProofs2 Sparql SparqlProofs.
Import ListNotations.
Local Close Scope Q_scope.
Local Open Scope nat_scope.
Local Open Scope string_scope.
Local Open Scope list_scope.

(** ** C30 *)

(** After any history of inserts and clears the answer is the one of the list
    of records. *)
Theorem C30_simple_data_source_is_a_list_of_records :
  forall (h : list ds_op) t columns values,
    NoDup columns -> length columns = length values ->
    (forall g, In g (records t h) -> NoDup (g_cols g) /\ forall c, In c columns -> is_none (field g c) = false) ->
    sds_select t columns values (sds_after h) = Ok (spec_select columns values (records t h)).
Proof. intros h t columns values. apply sds_select_spec. Qed.
Print Assumptions C30_simple_data_source_is_a_list_of_records.

(** [select_column]: the first of the columns of the selected records; without
    columns there is none to take *)
Theorem C30_select_column :
  forall (h : list ds_op) t columns values,
    NoDup columns -> length columns = length values ->
    (forall g, In g (records t h) -> NoDup (g_cols g) /\ forall c, In c columns -> is_none (field g c) = false) ->
    (forall c cs, columns = c :: cs ->
       select_column (sds_select t columns values (sds_after h)) = Ok (map (fun g => field g c) (filter (fits columns values) (records t h)))) /\
    (columns = [] -> records t h <> [] -> select_column (sds_select t columns values (sds_after h)) = Exn IndexErr).
Proof.
  intros h t columns values Hn Hl Hr. rewrite sds_select_spec by assumption. unfold select_column, spec_select. split.
  - intros c cs ->. induction (filter _ _) as [|g l IH]; [reflexivity|]. cbn [map first_column] in *. now rewrite IH.
  - intros -> Hne. destruct values; [|discriminate]. destruct (records t h) as [|g l]; [now destruct Hne|]. reflexivity.
Qed.
Print Assumptions C30_select_column.

(** operations on other tables make no difference *)
Theorem C30_other_tables_unaffected :
  forall (h1 h2 : list ds_op) t t' cs vs columns values,
    t <> t' ->
    sds_select t columns values (sds_after (h1 ++ OpInsert t' cs vs :: h2))
    = sds_select t columns values (sds_after (h1 ++ h2)).
Proof.
  intros h1 h2 t t' cs vs columns values Ht.
  assert (Hg : forall h s s', sds_get t s = sds_get t s' ->
    sds_get t (fold_left sds_do h s) = sds_get t (fold_left sds_do h s')).
  { induction h as [|[t0 c0 v0|] h IH]; intros s s' H; simpl; auto. apply IH. unfold sds_insert.
    destruct (String.eqb_spec t t0) as [->|Hne].
    - rewrite H. destruct (sds_get t0 s'); now rewrite !sds_get_put, String.eqb_refl.
    - destruct (sds_get t0 s), (sds_get t0 s'); rewrite !sds_get_put; destruct (String.eqb_spec t t0); congruence. }
  unfold sds_select, sds_after. rewrite !fold_left_app. simpl.
  rewrite (Hg h2 (sds_insert t' cs vs (fold_left sds_do h1 [])) (fold_left sds_do h1 [])); auto.
  unfold sds_insert. destruct (sds_get t' _); rewrite sds_get_put; destruct (String.eqb_spec t t'); congruence.
Qed.
Print Assumptions C30_other_tables_unaffected.

(** The deviation: one record with a None makes its table unreadable: every
    select of that column raises, unless one of the other values excludes the
    record.  A value for the missing column itself does not exclude it. *)
Theorem C30_none_value_breaks_select_refuted :
  forall (h : list ds_op) t columns values g c,
    NoDup columns ->
    In g (records t h) -> NoDup (g_cols g) -> In c columns -> field g c = VNone ->
    (forall k v, In (k, v) (combine columns values) -> v <> VNone -> field g k = VNone \/ py_eq (field g k) v = true) ->
    sds_select t columns values (sds_after h) = Exn KeyErr.
Proof.
  intros h t columns values g c Hd Hg Hn Hc Hf Hfit. unfold sds_select, create_dict.
  rewrite create_dict_pattern by auto. cbn [app].
  pose proof (sds_after_records t h) as Hr.
  destruct (sds_get t (sds_after h)) as [rs|]; simpl in Hr.
  - apply sds_rows_missing with (r := given_dict g).
    + rewrite Hr. now apply in_map.
    + apply forallb_forall. intros [k v] Hkv. apply pattern_In in Hkv as [Hkv Hv]. cbn [fst snd].
      rewrite given_dict_get by auto. destruct (Hfit k v Hkv) as [E|E]; [intros ->; discriminate|now rewrite E|].
      destruct (is_none (field g k)); auto.
    + eapply sds_row_missing; eauto. rewrite given_dict_get by auto. now rewrite Hf.
  - destruct (records t h); [destruct Hg|discriminate].
Qed.
Print Assumptions C30_none_value_breaks_select_refuted.

Example C30_example :
  let h := [OpInsert "p" ["a"; "b"] [VInt 1; VStr "x"]; OpInsert "q" ["z"] [VInt 9];
            OpClear; OpInsert "p" ["a"; "b"] [VInt 2; VStr "x"]; OpInsert "p" ["a"; "b"] [VInt 3; VStr "y"]] in
  sds_select "p" ["b"; "a"] [VStr "x"; VNone] (sds_after h) = Ok [[VStr "x"; VInt 2]] /\
  sds_select "q" ["z"] [VNone] (sds_after h) = Ok [] /\
  (forall g, In g (records "p" h) -> NoDup (g_cols g) /\ forall c, In c ["b"; "a"] -> is_none (field g c) = false).
Proof.
  split; [reflexivity|]. split; [reflexivity|].
  intros g [<-|[<-|[]]]; (split; [repeat constructor; simpl; intuition discriminate|]);
    intros c [<-|[<-|[]]]; reflexivity.
Qed.
Example C30_none_example :
  let h := [OpInsert "p" ["a"; "b"] [VInt 1; VStr "x"]; OpInsert "p" ["a"; "b"] [VInt 2; VNone]] in
  sds_select "p" ["a"; "b"] [VNone; VNone] (sds_after h) = Exn KeyErr /\
  sds_select "p" ["a"; "b"] [VNone; VStr "x"] (sds_after h) = Exn KeyErr /\
  sds_select "p" ["a"; "b"] [VInt 1; VNone] (sds_after h) = Ok [[VInt 1; VStr "x"]] /\
  field (mkGiven ["a"; "b"] [VInt 2; VNone]) "b" = VNone.
Proof. repeat split; reflexivity. Qed.

(** ** C31 *)

(** the given conditions: the columns with a value, in order *)
Definition conditions (columns : list string) (values : list value) : list (string * value) :=
  filter (fun cv => negb (is_none (snd cv))) (combine columns values).

Lemma pattern_conditions columns : forall values, pattern columns values = conditions columns values.
Proof.
  unfold conditions. induction columns as [|c columns IH]; intros [|v values]; simpl; auto.
  rewrite IH. now destruct (is_none v).
Qed.

Lemma where_loop_text mark columns : forall values w vs,
  fst (where_loop mark w vs columns values)
  = (w ^^ String.concat "" (map (fun cv => " AND " ^^ fst cv ^^ "=" ^^ mark) (conditions columns values)))%string.
Proof.
  assert (Hc : forall a l, String.concat "" (a :: l) = (a ^^ String.concat "" l)%string).
  { intros a [|b l]; simpl; [now rewrite sapp_nil|reflexivity]. }
  unfold conditions. induction columns as [|c columns IH]; intros [|v values] w vs; cbn [where_loop combine filter map];
    try (simpl; now rewrite sapp_nil).
  cbn [snd]. destruct (is_none v); cbn [negb]; [apply IH|]. rewrite IH. cbn [map fst]. rewrite Hc.
  rewrite !sapp_assoc. reflexivity.
Qed.

(** The text of a select and its parameters: every condition has one
    placeholder, in the order of the parameters, and no value is in the
    text.  (For [mark] "?": Sqlite; "%s": MySql and PsycoPg.) *)
Theorem C31_select_text_and_parameters :
  forall mark table columns values,
    select_text mark table columns values
    = ("SELECT " ^^ String.concat "," columns ^^ " FROM " ^^ table ^^ " WHERE TRUE" ^^
       String.concat "" (map (fun cv => " AND " ^^ fst cv ^^ "=" ^^ mark) (conditions columns values)))%string /\
    select_params columns values = map snd (conditions columns values).
Proof.
  intros mark table columns values. split.
  - unfold select_text. rewrite where_loop_text. 
    assert (Hj : forall l, join "," l = String.concat "," l) by (induction l as [|a [|b l] IH]; simpl in *; congruence).
    rewrite Hj. reflexivity.
  - rewrite select_params_spec. unfold bound_vals. now rewrite pattern_conditions.
Qed.
Print Assumptions C31_select_text_and_parameters.

(** Two calls that differ only in their values send the same text. *)
Theorem C31_values_never_enter_the_text :
  forall mark table columns values values',
    map is_none values = map is_none values' ->
    select_text mark table columns values = select_text mark table columns values' /\
    insert_text table columns values = insert_text table columns values'.
Proof.
  intros mark table columns values values' H. split.
  - unfold select_text.
    assert (G : forall columns values values' w vs vs', map is_none values = map is_none values' ->
      fst (where_loop mark w vs columns values) = fst (where_loop mark w vs' columns values')).
    { clear. induction columns as [|c columns IH]; intros [|v values] [|v' values'] w vs vs' H; simpl in *; try discriminate; auto.
      injection H as H1 H2. rewrite H1. destruct (is_none v'); now apply IH. }
    now rewrite (G columns values values' "TRUE" [] [] H).
  - unfold insert_text.
    assert (G : map (fun _ : value => "?") values = map (fun _ => "?") values'); [|now rewrite G].
    clear mark table columns. revert values' H.
    induction values as [|v values IH]; intros [|v' values'] H; simpl in *; try discriminate; auto.
    injection H as _ H. now rewrite (IH values' H).
Qed.
Print Assumptions C31_values_never_enter_the_text.

(** number of tokens that are placeholders *)
Definition marks_in (l : list token) : nat := length (filter (fun t => match t with TMark => true | _ => false end) l).

Lemma marks_app a b : marks_in (a ++ b) = marks_in a + marks_in b.
Proof. unfold marks_in. now rewrite filter_app, app_length. Qed.
Lemma marks_names l : marks_in (names_tokens l) = 0.
Proof. induction l as [|a [|b l] IH]; auto. Qed.
Lemma marks_and l : marks_in (and_tokens l) = length l.
Proof. induction l as [|a l IH]; auto. unfold marks_in in *. simpl in *. now rewrite IH. Qed.

(** Plain names: they begin with no digit, consist of letters, digits and
    underscores, and are none of the words of SQL, in capitals or not. *)
Definition capital (small big : ascii) : Prop :=
  exists i, String.get i "abcdefghijklmnopqrstuvwxyz" = Some small /\ String.get i "ABCDEFGHIJKLMNOPQRSTUVWXYZ" = Some big.
Fixpoint spells (s word : string) : Prop :=
  match s, word with
  | EmptyString, EmptyString => True
  | String c s', String d word' => (c = d \/ capital c d) /\ spells s' word'
  | _, _ => False
  end.
Definition in_capitals (word : string) : Prop := forall i c, String.get i word = Some c -> exists j, String.get j "ABCDEFGHIJKLMNOPQRSTUVWXYZ" = Some c.

Lemma upper_char_spec c d : (exists j, String.get j "ABCDEFGHIJKLMNOPQRSTUVWXYZ" = Some d) -> (upper_char c = d <-> c = d \/ capital c d).
Proof.
  intros Hd. split.
  - intros <-. unfold capital.
    destruct c as [b0 b1 b2 b3 b4 b5 b6 b7]; destruct b0, b1, b2, b3, b4, b5, b6, b7; (left; reflexivity) || (right;
      match goal with |- exists i, String.get i _ = Some ?x /\ _ => exists (nat_of_ascii x - 97); split; reflexivity end).
  - intros [->|(i & E1 & E2)].
    + destruct Hd as (j & Hj). do 26 (destruct j as [|j]; [injection Hj as <-; reflexivity|]). discriminate.
    + do 26 (destruct i as [|i]; [injection E1 as <-; injection E2 as <-; reflexivity|]). discriminate.
Qed.
Lemma upper_spells s : forall word, in_capitals word -> (upper s = word <-> spells s word).
Proof.
  induction s as [|c s IH]; intros [|d word] Hw; cbn [upper spells]; try (split; [discriminate|contradiction]); [tauto|].
  assert (Hw' : in_capitals word) by (intros i e E; exact (Hw (S i) e E)).
  rewrite <- (IH word Hw'), <- (upper_char_spec c d (Hw 0 d eq_refl)). split; [intros [= <- <-]; auto|intros (-> & ->); reflexivity].
Qed.
Theorem C31_plain_names : forall c s,
  sql_name (String c s) = true <->
  ~ In c ["0"; "1"; "2"; "3"; "4"; "5"; "6"; "7"; "8"; "9"]%char /\ all_word (String c s) = true /\
  (forall word, In word ["SELECT"; "FROM"; "WHERE"; "TRUE"; "AND"; "INSERT"; "OR"; "IGNORE"; "INTO"; "VALUES"; "DELETE"] -> ~ spells (String c s) word).
Proof.
  intros c s. unfold sql_name. rewrite !andb_true_iff, !negb_true_iff, and_assoc.
  assert (Hd : digit c = false <-> ~ In c ["0"; "1"; "2"; "3"; "4"; "5"; "6"; "7"; "8"; "9"]%char).
  { destruct c as [b0 b1 b2 b3 b4 b5 b6 b7]; destruct b0, b1, b2, b3, b4, b5, b6, b7; cbn;
      (split; [intros H; try discriminate H; intros I; intuition discriminate|intros H; try reflexivity; exfalso; apply H; tauto]). }
  rewrite Hd. apply and_iff_compat_l, and_iff_compat_l.
  assert (Hc : forall word, In word reserved -> in_capitals word).
  { intros word Hw i x E. unfold reserved in Hw. cbn in Hw.
    assert (Hx : forall l, (forall y, In y l -> exists j, String.get j "ABCDEFGHIJKLMNOPQRSTUVWXYZ" = Some y) -> In x l -> exists j, String.get j "ABCDEFGHIJKLMNOPQRSTUVWXYZ" = Some x) by auto.
    repeat (destruct Hw as [<-|Hw];
      [do 9 (try (destruct i as [|i]; [cbn in E; try discriminate E; injection E as <-;
         match goal with |- exists j, String.get j _ = Some ?y => exists (nat_of_ascii y - 65); reflexivity end|])); discriminate E|]); contradiction. }
  split.
  - intros H word Hw Hs. apply (upper_spells _ _ (Hc word Hw)) in Hs. unfold is_reserved in H.
    assert (existsb (String.eqb (upper (String c s))) reserved = true); [|congruence]. apply existsb_exists. exists word. split; [exact Hw|now apply String.eqb_eq].
  - intros H. destruct (is_reserved (String c s)) eqn:E; [|reflexivity]. exfalso. unfold is_reserved in E. apply existsb_exists in E as (word & Hw & E).
    apply String.eqb_eq in E. apply (H word Hw). now apply (upper_spells _ _ (Hc word Hw)).
Qed.
Print Assumptions C31_plain_names.
Example C31_names_example : sql_name "country_2" = true /\ sql_name "0x" = false /\ sql_name "vaLUES" = false /\ spells "vaLUES" "VALUES" /\ sql_name "VALUE" = true.
Proof.
  repeat (split; [reflexivity|]). split; [|reflexivity].
  split; [right; exists 21; now split|]. split; [right; exists 0; now split|]. repeat (split; [left; reflexivity|]). exact I.
Qed.

(** The statement, as the database reads it, has as many placeholders as
    there are parameters. *)
Theorem C31_placeholders_match_parameters :
  forall table columns values,
    sql_name table = true -> (forall c, In c columns -> sql_name c = true) ->
    exists l, lex (select_text "?" table columns values) "" = Some l /\
      marks_in l = length (select_params columns values).
Proof.
  intros table columns values Ht Hc. eexists. split; [now apply lex_select|].
  change (marks_in ([TWord "SELECT"] ++ names_tokens columns ++ [TWord "FROM"; TWord table; TWord "WHERE"; TWord "TRUE"]
    ++ and_tokens (bound_cols columns values)) = length (select_params columns values)).
  rewrite !marks_app, marks_names, marks_and, select_params_spec. unfold bound_cols, bound_vals.
  rewrite !map_length. reflexivity.
Qed.
Print Assumptions C31_placeholders_match_parameters.

(** So it is for the statements that write: the placeholders of an insert are
    the values, those of a delete stand with one column each. *)
Lemma marks_marks n : marks_in (marks_tokens n) = n.
Proof. induction n as [|[|n] IH]; [reflexivity|reflexivity|]. change (S (marks_in (marks_tokens (S n))) = S (S n)). now rewrite IH. Qed.
Theorem C31_placeholders_of_writes :
  forall table columns values,
    sql_name table = true -> (forall c, In c columns -> sql_name c = true) -> values <> [] ->
    (exists l, lex (insert_text table columns values) "" = Some l /\ marks_in l = length values) /\
    (exists l, lex (delete_text table columns) "" = Some l /\
       filter (fun t => match t with TMark | TEq => true | TWord w => existsb (String.eqb w) columns | _ => false end) (skipn 4 l)
       = flat_map (fun c => [TWord c; TEq; TMark]) columns).
Proof.
  intros table columns values Ht Hc Hv. split.
  - eexists. split; [now apply lex_insert|]. rewrite !marks_app, marks_names, marks_marks. cbn. lia.
  - eexists. split; [now apply lex_delete|]. cbn [app skipn].
    assert (A : existsb (String.eqb "AND") columns = false).
    { apply not_true_is_false. intros H. apply existsb_exists in H as (c & Hin & E). apply String.eqb_eq in E. subst c.
      specialize (Hc _ Hin). discriminate Hc. }
    set (keep := fun t => match t with TMark | TEq => true | TWord w => existsb (String.eqb w) columns | _ => false end).
    assert (G : forall l, incl l columns -> filter keep (and_tokens l) = flat_map (fun c => [TWord c; TEq; TMark]) l).
    { induction l as [|c l IH]; intros Hi; [reflexivity|]. cbn [and_tokens flat_map app filter keep]. fold keep. rewrite A.
      replace (existsb (String.eqb c) columns) with true.
      - f_equal. f_equal. f_equal. apply IH. intros x Hx. apply Hi. now right.
      - symmetry. apply existsb_exists. exists c. split; [apply Hi; now left|apply String.eqb_refl]. }
    rewrite <- (G columns (fun x H => H)). destruct columns as [|c cs]; [reflexivity|]. change (and_tokens (c :: cs)) with (TWord "AND" :: tl (and_tokens (c :: cs))) at 2.
    cbn [tl filter]. change (keep (TWord "AND")) with (existsb (String.eqb "AND") (c :: cs)). now rewrite A.
Qed.
Print Assumptions C31_placeholders_of_writes.

Example C31_example :
  let evil := VStr "x'; DROP TABLE p; --" in
  select_text "?" "p" ["a"; "b"] [evil; VNone] = "SELECT a,b FROM p WHERE TRUE AND a=?" /\
  select_text "%s" "p" ["a"; "b"] [evil; evil] = "SELECT a,b FROM p WHERE TRUE AND a=%s AND b=%s" /\
  select_params ["a"; "b"] [evil; VNone] = [evil] /\
  map is_none [evil; VNone] = map is_none [VInt 7; VNone].
Proof. repeat split; reflexivity. Qed.

(** ** C32 *)

(** [d] has the tables of [d0], all empty *)
Definition fresh_tables (d : sqldb) : Prop := forall t x, db_get t d = Some x -> t_rows x = [].

Lemma fresh_holds d : fresh_tables d -> holds d d (fun _ => []).
Proof.
  intros H t. destruct (db_get t d) as [[cs u rows]|] eqn:E; auto.
  specialize (H _ _ E). simpl in *. now subst.
Qed.

(** After any history of inserts and deletes the answer is the one of the
    list of records. *)
Theorem C32_sqlite_is_a_list_of_records :
  forall d (h : list sq_op) t x columns values,
    fresh_tables d -> Forall (op_ok d) h ->
    db_get t d = Some x -> fits_table x t columns values ->
    exists c, sq_run h (mkConn d d) = (Ok tt, c) /\
      sq_select t columns values c = (Ok (spec_select columns values (remaining t h [])), c).
Proof.
  intros d h t x columns values Hf Ho Hx Hft.
  destruct (sq_run_spec d h (mkConn d d) (fun _ => []) (fresh_holds d Hf) Ho) as (c & H1 & H2 & H3).
  exists c. split; auto. specialize (H3 t). rewrite Hx in H3.
  assert (Hft' : fits_table (mkTbl (t_cols x) (t_unique x) (map (row_of (t_cols x)) (remaining t h []))) t columns values)
    by (destruct Hft; constructor; auto).
  rewrite (sq_select_run t _ columns values Hft' (remaining t h []) c H3 eq_refl).
  now destruct c.
Qed.
Print Assumptions C32_sqlite_is_a_list_of_records.

(** A None in a delete matches nothing: the delete removes no record. *)
Theorem C32_delete_with_none_removes_nothing :
  forall t h cs vs,
    length cs = length vs -> In VNone vs -> remaining t (h ++ [SqDelete t cs vs]) [] = remaining t h [].
Proof.
  intros t h cs vs Hl Hv.
  assert (Hr : forall h acc, remaining t (h ++ [SqDelete t cs vs]) acc = filter (fun g => negb (has_all cs vs g)) (remaining t h acc)).
  { clear. induction h as [|[t' c v|t' c v] h IH]; intros acc; simpl; auto. now rewrite String.eqb_refl. }
  rewrite Hr.
  assert (Hn : forall g, has_all cs vs g = false).
  { clear Hr. intros g. unfold has_all. revert cs Hl. induction vs as [|v vs IH]; intros [|c cs] Hl; try discriminate; [destruct Hv|].
    injection Hl as Hl. simpl. destruct Hv as [->|Hv]; auto. rewrite (IH Hv cs Hl). apply andb_false_r. }
  induction (remaining t h []) as [|g l IH]; auto. simpl. rewrite Hn. simpl. now rewrite IH.
Qed.
Print Assumptions C32_delete_with_none_removes_nothing.

(** A row that violates a uniqueness constraint is dropped without an error. *)
Theorem C32_conflicting_insert_is_silently_ignored :
  forall t x columns values c,
    fits_table x t columns values -> db_get t (current c) = Some x ->
    conflicts x (map (cell columns values) (t_cols x)) = true ->
    sq_insert t columns values c = (Ok tt, c).
Proof.
  intros t x columns values c [H1 H2 H3 H4 H5 H6] Hd Hc. unfold sq_insert, run_sql, execute, bind.
  assert (values <> []) by (intros ->; destruct columns; [congruence|discriminate]).
  rewrite parse_insert, storable_values by auto. cbn [run_stmt]. rewrite Hd.
  rewrite has_cols by auto. rewrite <- H4, !Nat.eqb_refl. cbn [andb]. rewrite Hc. now destruct c.
Qed.
Print Assumptions C32_conflicting_insert_is_silently_ignored.

(** A row violates the constraint on a group of columns if there is a row with
    the same values, none of them NULL, in all of these columns.  If it violates
    no constraint it is added. *)
Definition same_key (cols group : list string) (old row : list value) : Prop :=
  forall c, In c group -> cell cols old c <> VNone /\ cell cols row c <> VNone /\ py_eq (cell cols old c) (cell cols row c) = true.
Theorem C32_constraints_decide_on_inserts :
  forall t x columns values c,
    fits_table x t columns values -> db_get t (current c) = Some x ->
    let row := map (cell columns values) (t_cols x) in
    ((exists group old, In group (t_unique x) /\ In old (t_rows x) /\ same_key (t_cols x) group old row) ->
     sq_insert t columns values c = (Ok tt, c)) /\
    ((forall group old, In group (t_unique x) -> In old (t_rows x) -> ~ same_key (t_cols x) group old row) ->
     sq_insert t columns values c
     = (Ok tt, mkConn (committed c) (db_put t (mkTbl (t_cols x) (t_unique x) (t_rows x ++ [row])) (current c)))).
Proof.
  intros t x columns values c Hf Hd row.
  assert (Hk : forall group old, forallb (fun k => sql_eq (cell (t_cols x) old k) (cell (t_cols x) row k)) group = true <-> same_key (t_cols x) group old row).
  { intros group old. rewrite forallb_forall. unfold same_key. split; intros H k Hk; specialize (H k Hk); unfold sql_eq in *.
    - apply andb_true_iff in H as (H & H3). apply andb_true_iff in H as (H1 & H2). split; [|split; [|exact H3]]; intros E; rewrite E in *; discriminate.
    - destruct H as (H1 & H2 & H3). rewrite H3, andb_true_r. destruct (cell (t_cols x) old k), (cell (t_cols x) row k); try congruence; reflexivity. }
  split.
  - intros (group & old & Hg & Ho & Hs). eapply C32_conflicting_insert_is_silently_ignored; eauto. unfold conflicts. apply existsb_exists.
    exists group. split; [exact Hg|]. apply existsb_exists. exists old. split; [exact Ho|]. apply Hk. exact Hs.
  - intros Hn. assert (Hc : conflicts x row = false).
    { apply not_true_iff_false. intros E. unfold conflicts in E. apply existsb_exists in E as (group & Hg & E). apply existsb_exists in E as (old & Ho & E).
      apply Hk in E. exact (Hn _ _ Hg Ho E). }
    destruct Hf as [H1 H2 H3 H4 H5 H6]. unfold sq_insert, run_sql, execute, bind.
    assert (values <> []) by (intros ->; destruct columns; [congruence|discriminate]).
    rewrite parse_insert, storable_values by auto. cbn [run_stmt]. rewrite Hd.
    rewrite has_cols by auto. rewrite <- H4, !Nat.eqb_refl. cbn [andb]. fold row. rewrite Hc. reflexivity.
Qed.
Print Assumptions C32_constraints_decide_on_inserts.

Example C32_constraints_example :
  let x := mkTbl ["name"; "id"] [["name"; "id"]] [[VStr "ann"; VInt 1]] in
  let put name id := sq_insert "people" ["name"; "id"] [VStr name; VInt id] (mkConn [] [("people", x)]) in
  fits_table x "people" ["name"; "id"] [VStr "ann"; VInt 2] /\
  put "ann" 1%Z = (Ok tt, mkConn [] [("people", x)]) /\
  put "ann" 2%Z = (Ok tt, mkConn [] [("people", mkTbl ["name"; "id"] [["name"; "id"]] [[VStr "ann"; VInt 1]; [VStr "ann"; VInt 2]])]).
Proof.
  cbn zeta. split; [|split; vm_compute; reflexivity]. constructor; try reflexivity; [intros c [<-|[<-|[]]]; reflexivity|discriminate|intros c Hc; exact Hc].
Qed.

(** A select of a table or column that does not exist raises. *)
Theorem C32_unknown_column_raises :
  forall t x columns values c col,
    sql_name t = true -> names columns -> db_get t (current c) = Some x ->
    In col columns -> ~ In col (t_cols x) -> forallb storable values = true ->
    fst (sq_select t columns values c) = Exn DbErr.
Proof.
  intros t x columns values c col Ht Hn Hd Hc Hx Hs. unfold sq_select, run_sql, execute.
  assert (columns <> []) by (destruct columns; [destruct Hc|discriminate]).
  rewrite parse_select, select_params_spec by auto.
  rewrite storable_values by (now apply bound_vals_storable). cbn [run_stmt]. rewrite Hd.
  replace (forallb (has_col (t_cols x)) (columns ++ bound_cols columns values)) with false; [reflexivity|].
  symmetry. apply not_true_iff_false. rewrite forallb_forall. intros F. apply Hx.
  assert (Hb : has_col (t_cols x) col = true) by (apply F, in_or_app; now left).
  unfold has_col in Hb. apply existsb_exists in Hb as (y & Hy & E). apply String.eqb_eq in E. now subst.
Qed.
Print Assumptions C32_unknown_column_raises.

Definition c32_db : sqldb := [("p", mkTbl ["a"; "b"] [] []); ("u", mkTbl ["k"] [["k"]] [])].
Definition c32_history : list sq_op :=
  [SqInsert "p" ["a"; "b"] [VInt 1; VStr "x"]; SqInsert "p" ["b"; "a"] [VStr "y"; VInt 2];
   SqInsert "p" ["a"] [VInt 3]; SqDelete "p" ["a"] [VInt 1]; SqDelete "p" ["b"] [VNone]].
Ltac fits := constructor; simpl; auto; try discriminate; intros z Hz; simpl in *; intuition (subst; auto; try reflexivity).
Example C32_example :
  fresh_tables c32_db /\ Forall (op_ok c32_db) c32_history /\
  fits_table (mkTbl ["a"; "b"] [] []) "p" ["b"; "a"] [VStr "y"; VNone] /\
  fst (sq_select "p" ["b"; "a"] [VStr "y"; VNone] (snd (sq_run c32_history (mkConn c32_db c32_db)))) = Ok [[VStr "y"; VInt 2]] /\
  fst (sq_select "p" ["a"; "b"] [VNone; VNone] (snd (sq_run c32_history (mkConn c32_db c32_db)))) = Ok [[VInt 2; VStr "y"]; [VInt 3; VNone]].
Proof.
  split. { intros t x. unfold c32_db. simpl. destruct (String.eqb t "p"); [intros [= <-]; auto|].
           destruct (String.eqb t "u"); [intros [= <-]; auto|discriminate]. }
  split. { repeat constructor; (eexists; split; [reflexivity|split; [reflexivity|fits]]). }
  split; [fits|]. split; vm_compute; reflexivity.
Qed.
Example C32_conflict_example :
  let c := snd (sq_run [SqInsert "u" ["k"] [VInt 1]] (mkConn c32_db c32_db)) in
  sq_insert "u" ["k"] [VInt 1] c = (Ok tt, c) /\ fst (sq_select "u" ["k"] [VNone] c) = Ok [[VInt 1]].
Proof. split; vm_compute; reflexivity. Qed.

(** ** C33 *)
Section C33.
  Context {E : Type}.
  Variable lang : string.
  Variable ask : string -> M E response.
  Variable hash : string -> string.
  Notation csel := (cached_select E lang ask hash).
  Notation run := (run_selects E lang ask hash).

  (** in [h], no other query has the file of [q], and no result of [q] is left
      half-written *)
  Definition own_file (q : query) (h : list (query * fault)) : Prop :=
    forall q' f, In (q', f) h -> cache_key hash q' = cache_key hash q -> q' = q /\ f <> DumpFails /\ f <> DiesInDump.

  (** Once a query was answered and its result written, it is always answered
      the same, with no request and no change at all. *)
  Theorem C33_answered_once_then_cached :
    forall q h s tr s' rows,
      own_file q h -> file_get (cache_key hash q) (files E s) = None ->
      run h s = (tr, s') -> In (q, NoFault, Answered rows) tr ->
      forall f, csel f q s' = (Answered rows, s').
  Proof.
    intros q h s tr s' rows Ho Hs Hr Hin f.
    pose proof (run_file lang ask hash q h s Ho Hs) as H. rewrite Hr in H. destruct H as [H _].
    unfold cached_select. now rewrite (H rows Hin).
  Qed.

  (** A refusal of the endpoint is reported, and not remembered. *)
  Theorem C33_refusals_are_reported :
    forall f q s text e' code message,
      query_text lang q = Ok text -> file_get (cache_key hash q) (files E s) = None ->
      ask text (endpoint E s) = (Ok (RStatus code), e') ->
      In (code, message) [(403%Z, "Not allowed"); (429%Z, "Too many requests"); (400%Z, "Bad request")] ->
      csel f q s = (Raised (Raise message), mkSps E (files E s) e').
  Proof.
    intros f q s text e' code message Hq Hf Ha Hm. unfold cached_select, do_select. rewrite Hf, Hq.
    unfold query_text in Hq. destruct (q_values q) as [|v0 [|v1 vs]]; try discriminate. destruct (q_columns q) as [|c0 [|c1 cs]]; try discriminate.
    unfold bind. rewrite Ha. destruct Hm as [E1|[E1|[E1|[]]]]; injection E1 as <- <-; reflexivity.
  Qed.

  (** As long as it was not, the request goes to the endpoint and its answer is
      given. *)
  Theorem C33_not_yet_answered_asks :
    forall q h s tr s',
      own_file q h -> file_get (cache_key hash q) (files E s) = None ->
      run h s = (tr, s') -> (forall rows, ~ In (q, NoFault, Answered rows) tr) ->
      forall f, f = NoFault \/ f = OpenFails ->
        fst (csel f q s') = match fst (do_select E lang ask q (endpoint E s')) with
                            | Ok rows => Answered rows
                            | Exn e => Raised e
                            | OutOfFuel => Raised (Raise "recursion")
                            end /\
        endpoint E (snd (csel f q s')) = snd (do_select E lang ask q (endpoint E s')).
  Proof.
    intros q h s tr s' Ho Hs Hr Hin f Hf.
    pose proof (run_file lang ask hash q h s Ho Hs) as H. rewrite Hr in H. destruct H as [_ H].
    unfold cached_select. rewrite (H Hin). destruct (do_select E lang ask q (endpoint E s')) as [[rows|e|] e'];
      destruct Hf as [-> | ->]; auto.
  Qed.

  (** With an endpoint whose answers do not change, every answer is the one
      that would be given without a cache. *)
  Theorem C33_transparent_for_a_steady_endpoint :
    (forall text e e', fst (ask text e) = fst (ask text e')) ->
    forall q h s tr s' f rows,
      own_file q h -> file_get (cache_key hash q) (files E s) = None ->
      run h s = (tr, s') -> In (q, f, Answered rows) tr ->
      forall e, fst (do_select E lang ask q e) = Ok rows.
  Proof.
    intros Hst q. 
    assert (Hdo : forall e e', fst (do_select E lang ask q e) = fst (do_select E lang ask q e')).
    { intros e e'. unfold do_select. destruct (query_text lang q) as [text| |]; auto.
      destruct (q_values q) as [|v0 [|v1 ?]]; auto. destruct (q_columns q) as [|c0 [|c1 ?]]; auto.
      unfold bind. specialize (Hst text e e'). destruct (ask text e) as [[r|x|] e1], (ask text e') as [[r'|x'|] e1'];
        simpl in Hst; try discriminate; auto; try (simpl; congruence).
      injection Hst as <-. destruct r; auto. now destruct (prepare_results _ _ _ _ _). }
    assert (Hfile : forall h s tr s' f rows,
      own_file q h ->
      (file_get (cache_key hash q) (files E s) = None \/
       exists r, file_get (cache_key hash q) (files E s) = Some (Complete r) /\ forall e, fst (do_select E lang ask q e) = Ok r) ->
      run h s = (tr, s') -> In (q, f, Answered rows) tr ->
      forall e, fst (do_select E lang ask q e) = Ok rows).
    { induction h as [|[q1 f1] h IH]; intros s tr s' f rows Ho Hs Hr Hin e; simpl in Hr.
      { injection Hr as <- <-. destruct Hin. }
      destruct (csel f1 q1 s) as [r1 s1] eqn:Ec. destruct (run h s1) as [tr1 s2] eqn:Er.
      injection Hr as <- <-.
      assert (Ho' : own_file q h) by (intros q' f' H; apply Ho; now right).
      assert (Hown : q1 = q -> f1 <> DumpFails /\ f1 <> DiesInDump)
        by (intros ->; destruct (Ho q f1); auto; now left).
      destruct Hin as [[= -> -> ->]|Hin].
      - unfold cached_select in Ec. destruct Hs as [Hs|(r & Hs & Hr)]; rewrite Hs in Ec.
        + pose proof (Hdo e (endpoint E s)) as Hd.
          destruct (do_select E lang ask q (endpoint E s)) as [[rows'|x|] e'] eqn:Ed; simpl in Hd; try discriminate.
          destruct f; injection Ec; intros; subst; try discriminate; auto; congruence.
        + injection Ec as <- _. auto.
      - apply (IH s1 tr1 s2 f rows Ho'); auto. clear IH Hin.
        destruct Hs as [Hs|(r & Hs & Hr)].
        2:{ right. exists r. split; auto. pose proof (select_keeps lang ask hash f1 q1 s _ _ Hs) as Hk. now rewrite Ec in Hk. }
        destruct (string_dec (cache_key hash q1) (cache_key hash q)) as [Heq|Hne].
        + destruct (Ho q1 f1) as [-> _]; [now left|auto|].
          unfold cached_select in Ec. rewrite Hs in Ec. pose proof (fun e => Hdo e (endpoint E s)) as Hd.
          destruct (do_select E lang ask q (endpoint E s)) as [[rows'|x|] e'] eqn:Ed; simpl in Hd.
          * destruct (Hown eq_refl). destruct f1; try congruence; injection Ec as <- <-; simpl; auto.
            right. exists rows'. rewrite file_get_put, String.eqb_refl. auto.
          * injection Ec as <- <-. auto.
          * injection Ec as <- <-. auto.
        + left. pose proof (select_other lang ask hash f1 q1 s (cache_key hash q)) as H. rewrite Ec in H. apply H; auto. }
    intros h s tr s' f rows Ho Hs Hr Hin. eapply Hfile; eauto.
  Qed.
End C33.
Print Assumptions C33_answered_once_then_cached.
Print Assumptions C33_refusals_are_reported.
Print Assumptions C33_not_yet_answered_asks.
Print Assumptions C33_transparent_for_a_steady_endpoint.

(** The text that is hashed distinguishes all queries (table names without
    "[", plain data values); so only a hash collision can confuse two. *)
Theorem C33_different_queries_different_files :
  forall hash q1 q2,
    no_bracket (q_table q1) -> no_bracket (q_table q2) ->
    forallb data (q_values q1) = true -> forallb data (q_values q2) = true ->
    (forall a b, hash a = hash b -> a = b) ->
    cache_key hash q1 = cache_key hash q2 -> q1 = q2.
Proof. intros hash q1 q2 H1 H2 H3 H4 Hh H. apply key_text_injective; auto. Qed.
Print Assumptions C33_different_queries_different_files.

Example C33_refusal_example :
  let q := mkQuery "wdt:P50" ["id"; "id"] [VStr "Q1"; VNone] in
  (exists text, query_text "en" q = Ok text) /\
  cached_select nat "en" (fun _ n => (Ok (RStatus 429), S n)) (fun x => x) NoFault q (mkSps nat [] 0)
  = (Raised (Raise "Too many requests"), mkSps nat [] 1).
Proof. cbn zeta. split; [eexists; vm_compute; reflexivity|vm_compute; reflexivity]. Qed.

(** a small endpoint: it counts the requests and answers with the number *)
Definition c33_ask : string -> M nat response :=
  fun text n => (Ok (RData [[("term1", VInt (Z.of_nat n))]]), S n).
Definition c33_q : query := mkQuery "wdt:P50" ["id"; "id"] [VStr "Q1"; VNone].
Definition c33_q2 : query := mkQuery "wdt:P51" ["id"; "id"] [VStr "Q1"; VNone].
Definition c33_h : list (query * fault) := [(c33_q, OpenFails); (c33_q2, DiesInDump); (c33_q, NoFault); (c33_q, NoFault)].
Definition c33_run := run_selects nat "en" c33_ask (fun x => x) c33_h (mkSps nat [] 0).
Example C33_example :
  own_file (fun x => x) c33_q c33_h /\
  map snd (fst c33_run) = [Answered [[VStr "Q1"; VInt 0]]; Died; Answered [[VStr "Q1"; VInt 2]]; Answered [[VStr "Q1"; VInt 2]]] /\
  endpoint nat (snd c33_run) = 3.
Proof.
  split; [|split; vm_compute; reflexivity].
  intros q' f Hin H. simpl in Hin. destruct Hin as [Hin|[Hin|[Hin|[Hin|[]]]]]; injection Hin as <- <-;
    try (split; [reflexivity|split; discriminate]).
  vm_compute in H. discriminate.
Qed.
Example C33_keys_example :
  no_bracket (q_table c33_q) /\ forallb data (q_values c33_q) = true /\ cache_key (fun x => x) c33_q <> cache_key (fun x => x) c33_q2.
Proof. split; [reflexivity|]. split; [reflexivity|]. vm_compute. discriminate. Qed.

(** ** C34 *)
Section C34.
  Context {E : Type}.
  Variable lang : string.
  Variable ask : string -> M E response.
  Variable hash : string -> string.
  Notation csel := (cached_select E lang ask hash).
  Notation run := (run_selects E lang ask hash).

  (** The write of a result that breaks off (the process ends, or the disk is
      full) leaves a file that makes every later select of that query
      raise, whatever happens in between. *)
  Theorem C34_interrupted_write_poisons_the_query :
    forall q f rows e' s h,
      file_get (cache_key hash q) (files E s) = None ->
      do_select E lang ask q (endpoint E s) = (Ok rows, e') ->
      f = DumpFails \/ f = DiesInDump ->
      forall f' x, In (q, f', x) (fst (run h (snd (csel f q s)))) -> exists msg, x = Raised (Raise msg).
  Proof.
    intros q f rows e' s h Hs Hd Hf f' x Hin.
    assert (Ht : file_get (cache_key hash q) (files E (snd (csel f q s))) = Some Truncated).
    { unfold cached_select. rewrite Hs, Hd. destruct Hf as [-> | ->]; simpl; now rewrite file_get_put, String.eqb_refl. }
    pose proof (run_truncated lang ask hash q h _ Ht) as H.
    destruct (run h (snd (csel f q s))) as [tr s']. destruct H as [_ H]. eauto.
  Qed.

  (** Ending the process before the file is opened is harmless. *)
  Theorem C34_crash_before_open_is_harmless :
    forall q s, file_get (cache_key hash q) (files E s) = None -> files E (snd (csel DiesBeforeOpen q s)) = files E s.
  Proof.
    intros q s Hs. unfold cached_select. rewrite Hs. now destruct (do_select E lang ask q (endpoint E s)) as [[]?].
  Qed.

  (** Queries with another key are not affected by any fault. *)
  Theorem C34_other_queries_unaffected :
    forall q q' f s, cache_key hash q' <> cache_key hash q ->
      file_get (cache_key hash q) (files E (snd (csel f q' s))) = file_get (cache_key hash q) (files E s).
  Proof.
    intros q q' f s Hne. destruct (file_get (cache_key hash q) (files E s)) as [c|] eqn:Eg.
    - now apply select_keeps.
    - apply select_other; auto.
  Qed.
End C34.
Print Assumptions C34_interrupted_write_poisons_the_query.
Print Assumptions C34_crash_before_open_is_harmless.
Print Assumptions C34_other_queries_unaffected.

Example C34_example :
  let s := snd (cached_select nat "en" c33_ask (fun x => x) DiesInDump c33_q (mkSps nat [] 0)) in
  do_select nat "en" c33_ask c33_q 0 = (Ok [[VStr "Q1"; VInt 0]], 1) /\
  map snd (fst (run_selects nat "en" c33_ask (fun x => x) [(c33_q, NoFault); (c33_q2, NoFault); (c33_q, NoFault)] s))
  = [Raised (Raise "Ran out of input"); Answered [[VStr "Q1"; VInt 1]]; Raised (Raise "Ran out of input")].
Proof. split; vm_compute; reflexivity. Qed.

(** ** C35 *)

Definition term_name (i : nat) : string := match i with O => "term0" | _ => "term1" end.
(** the value at a position: the given one, or the endpoint's for the variable of that position *)
Definition answer_at (it : item) (i : nat) (v : value) (x : value) : Prop :=
  (v <> VNone -> x = v) /\ (v = VNone -> bget (term_name i) it = Some x).

Lemma term_var lang i c : i < 2 -> drop_first (prepare_term lang VNone i c) = term_name i.
Proof. intros H. destruct i as [|[|i]]; [reflexivity|reflexivity|lia]. Qed.

Theorem C35_rows_keep_bound_and_fill_free_positions :
  forall E lang (ask : string -> M E response) q v0 v1 vs c0 c1 cs text e items e' rows e2,
    q_values q = v0 :: v1 :: vs -> q_columns q = c0 :: c1 :: cs ->
    query_text lang q = Ok text -> ask text e = (Ok (RData items), e') ->
    do_select E lang ask q e = (Ok rows, e2) ->
    Forall2 (fun it row => exists x0 x1, row = [x0; x1] /\ answer_at it 0 v0 x0 /\ answer_at it 1 v1 x1) items rows.
Proof.
  intros E lang ask q v0 v1 vs c0 c1 cs text e items e' rows e2 Hv Hc Ht Ha H.
  unfold do_select in H. rewrite Ht, Hv, Hc in H. unfold bind in H. rewrite Ha in H.
  destruct (prepare_results items v0 v1 _ _) as [rows'|x|] eqn:Ep; try discriminate. injection H as -> _. clear Ha Ht.
  assert (Hcell : forall it i v c x, i < 2 -> result_cell it v (prepare_term lang v i c) = Ok x -> answer_at it i v x).
  { intros it i v c x Hi Hr. unfold result_cell in Hr. split.
    - intros Hn. destruct v; try (now injection Hr); congruence.
    - intros ->. simpl is_none in Hr. cbn iota in Hr. rewrite term_var in Hr by auto. destruct (bget (term_name i) it); congruence. }
  revert rows Ep. induction items as [|it items IH]; intros rows Ep; cbn [prepare_results] in Ep.
  - injection Ep as <-. constructor.
  - destruct (result_cell it v0 _) as [a|?|] eqn:E0; try discriminate;
      destruct (result_cell it v1 _) as [b|?|] eqn:E1; try discriminate.
    destruct (prepare_results items v0 v1 _ _) as [rs|?|] eqn:Er; try discriminate. injection Ep as <-.
    constructor; auto. exists a, b. split; [auto|]. split; eapply Hcell; eauto.
Qed.
Print Assumptions C35_rows_keep_bound_and_fill_free_positions.

(** an answer in which the variable of a free position is missing *)
Theorem C35_missing_variables_raise :
  forall E lang (ask : string -> M E response) q v0 v1 vs c0 c1 cs text e it items e',
    q_values q = v0 :: v1 :: vs -> q_columns q = c0 :: c1 :: cs ->
    query_text lang q = Ok text -> ask text e = (Ok (RData (it :: items)), e') ->
    (v0 = VNone /\ bget (term_name 0) it = None) \/ (v1 = VNone /\ bget (term_name 1) it = None) ->
    do_select E lang ask q e = (Exn KeyErr, e').
Proof.
  intros E lang ask q v0 v1 vs c0 c1 cs text e it items e' Hv Hc Ht Ha H.
  unfold do_select. rewrite Ht, Hv, Hc. unfold bind. rewrite Ha. cbn [prepare_results].
  assert (G : forall v i c, i < 2 -> result_cell it v (prepare_term lang v i c) = Exn KeyErr \/ exists x, result_cell it v (prepare_term lang v i c) = Ok x).
  { intros v i c Hi. unfold result_cell. destruct (is_none v); [|right; eexists; reflexivity].
    set (k := drop_first _). destruct (bget k it); [right; eexists; reflexivity|now left]. }
  assert (F : forall v i c, i < 2 -> v = VNone -> bget (term_name i) it = None -> result_cell it v (prepare_term lang v i c) = Exn KeyErr).
  { intros v i c Hi -> Hn. unfold result_cell. cbn [is_none]. now rewrite term_var, Hn. }
  destruct (G v0 0 c0 ltac:(lia)) as [E0|(x0 & E0)]; [rewrite E0; reflexivity|]. destruct H as [(H1 & H2)|(H1 & H2)].
  - rewrite (F v0 0 c0) in E0; auto; discriminate.
  - rewrite E0, (F v1 1 c1) by auto. reflexivity.
Qed.
Print Assumptions C35_missing_variables_raise.

(** the variables that are selected are those of the free positions *)
Definition asked_variables (v0 v1 : value) : string :=
  match is_none v0, is_none v1 with
  | true, true => "?term0 ?term1"
  | true, false => "?term0"
  | false, true => "?term1"
  | false, false => "*"
  end.
(** how a value is written, depending on the kind of its column *)
Inductive written (lang : string) (i : nat) : string -> value -> string -> Prop :=
| wr_free c : written lang i c VNone ("?" ^^ term_name i)
| wr_id s : written lang i "id" (VStr s) ("<" ^^ s ^^ ">")
| wr_constant s : written lang i "constant" (VStr s) s
| wr_text c s : c <> "id" -> c <> "constant" -> written lang i c (VStr s) ("'" ^^ s ^^ "'@" ^^ lang)
| wr_other c v : v <> VNone -> (forall s, v <> VStr s) -> written lang i c v (py_str v).
(** a free position of a text column is restricted to the language *)
Definition language_filter (lang : string) (i : nat) (c : string) (v : value) : string :=
  if is_none v && String.eqb c "text"
  then nl ^^ "                FILTER(LANG(?" ^^ term_name i ^^ ") = """ ^^ lang ^^ """) ." ^^ nl ^^ "            "
  else "".

Lemma written_term lang i c v : i < 2 -> written lang i c v (prepare_term lang v i c).
Proof.
  intros Hi. destruct v; try (apply wr_other; [discriminate|intros s0; discriminate]).
  - replace (prepare_term lang VNone i c) with ("?" ^^ term_name i)%string; [apply wr_free|].
    destruct i as [|[|i]]; [reflexivity|reflexivity|lia].
  - cbn [prepare_term]. unfold ID, CONSTANT. destruct (String.eqb_spec c "id"); [subst; apply wr_id|].
    destruct (String.eqb_spec c "constant"); [subst; apply wr_constant|now apply wr_text].
Qed.

Theorem C35_query_selects_the_free_positions :
  forall lang table c0 c1 v0 v1,
    exists t0 t1, written lang 0 c0 v0 t0 /\ written lang 1 c1 v1 t1 /\
      query_text lang (mkQuery table [c0; c1] [v0; v1])
      = Ok (nl ^^ "            SELECT " ^^ asked_variables v0 v1 ^^ " WHERE {" ^^ nl ^^ "                " ^^
            t0 ^^ " " ^^ table ^^ " " ^^ t1 ^^ " ." ^^ nl ^^ "                " ^^
            (language_filter lang 0 c0 v0 ^^ language_filter lang 1 c1 v1) ^^ nl ^^
            "            }" ^^ nl ^^ "        ")%string.
Proof.
  intros lang table c0 c1 v0 v1. exists (prepare_term lang v0 0 c0), (prepare_term lang v1 1 c1).
  split; [apply written_term; lia|]. split; [apply written_term; lia|].
  unfold query_text. cbn [q_values q_columns q_table]. unfold create_query.
  assert (Hj : join " " (prepare_variables v0 v1 (prepare_term lang v0 0 c0) (prepare_term lang v1 1 c1)) = asked_variables v0 v1).
  { unfold prepare_variables, asked_variables. destruct v0; destruct v1; reflexivity. }
  rewrite Hj. match goal with |- context [fold_left ?f ?l ""] =>
    replace (fold_left f l "") with (language_filter lang 0 c0 v0 ^^ language_filter lang 1 c1 v1)%string; [reflexivity|] end.
  unfold prepare_text_variables, language_filter, TEXT.
  destruct (is_none v0) eqn:E0, (is_none v1) eqn:E1; cbn [andb];
    try destruct (String.eqb c0 "text"); try destruct (String.eqb c1 "text"); cbn [fold_left app]; rewrite ?app_nil_s;
    destruct v0, v1; try discriminate; reflexivity.
Qed.
Print Assumptions C35_query_selects_the_free_positions.

Example C35_example :
  do_select nat "en" c33_ask c33_q 5 = (Ok [[VStr "Q1"; VInt 5]], 6) /\
  exists text, query_text "en" c33_q = Ok text /\ c33_ask text 5 = (Ok (RData [[("term1", VInt 5)]]), 6).
Proof. split; [vm_compute; reflexivity|]. eexists. split; reflexivity. Qed.

(** ** C39 *)

(** The SPARQL short string literal: up to the next quote; a backslash takes
    the next character with it.  [None]: no end. *)
Fixpoint literal_body (s : string) : option (string * string) :=
  match s with
  | EmptyString => None
  | String c rest =>
      if Ascii.eqb c "'" then Some ("", rest)
      else if Ascii.eqb c "\" then
        match rest with
        | String d rest' => match literal_body rest' with Some (a, r) => Some (String d a, r) | None => None end
        | EmptyString => None
        end
      else match literal_body rest with Some (a, r) => Some (String c a, r) | None => None end
  end.
Definition read_literal (s : string) : option (string * string) :=
  match s with String c rest => if Ascii.eqb c "'" then literal_body rest else None | _ => None end.

(** no quote and no backslash *)
Definition plain_text (s : string) : Prop := str_contains "'" s = false /\ str_contains "\" s = false.

Lemma literal_plain s r : plain_text s -> literal_body (s ^^ String "'" r) = Some (s, r).
Proof.
  intros [H1 H2]. induction s as [|c s IH]; [reflexivity|].
  cbn [str_contains] in H1, H2. apply orb_false_iff in H1 as [H1 H1'], H2 as [H2 H2'].
  change (String c s ^^ String "'" r) with (String c (s ^^ String "'" r)). cbn [literal_body].
  rewrite (Ascii.eqb_sym c "'"), H1, (Ascii.eqb_sym c "\"), H2. now rewrite IH.
Qed.

(** A text without quotes and backslashes arrives as that text. *)
Theorem C39_plain_text_arrives :
  forall lang s i column, column <> ID -> column <> CONSTANT -> plain_text s ->
    read_literal (prepare_term lang (VStr s) i column) = Some (s, ("@" ^^ lang)%string).
Proof.
  intros lang s i column H1 H2 Hs. unfold prepare_term.
  rewrite (proj2 (String.eqb_neq _ _) H1), (proj2 (String.eqb_neq _ _) H2).
  change (literal_body (s ^^ String "'" ("@" ^^ lang)) = Some (s, "@" ^^ lang)). now apply literal_plain.
Qed.
Print Assumptions C39_plain_text_arrives.

(** The text is not escaped: at its first quote the literal ends, and what
    follows is read as part of the query. *)
Theorem C39_quote_ends_the_literal_refuted :
  forall lang before after i column, column <> ID -> column <> CONSTANT -> plain_text before ->
    read_literal (prepare_term lang (VStr (before ^^ String "'" after)) i column)
    = Some (before, (after ^^ "'@" ^^ lang)%string).
Proof.
  intros lang before after i column H1 H2 Hs. unfold prepare_term.
  rewrite (proj2 (String.eqb_neq _ _) H1), (proj2 (String.eqb_neq _ _) H2).
  change (literal_body ((before ^^ String "'" after) ^^ "'@" ^^ lang) = Some (before, after ^^ "'@" ^^ lang)).
  rewrite sapp_assoc. change (String "'" after ^^ "'@" ^^ lang) with (String "'" (after ^^ "'@" ^^ lang)).
  now apply literal_plain.
Qed.
Print Assumptions C39_quote_ends_the_literal_refuted.

Example C39_example :
  plain_text "Byron" /\ plain_text "O" /\
  read_literal (prepare_term "en" (VStr "Byron") 0 "text") = Some ("Byron", "@en") /\
  read_literal (prepare_term "en" (VStr "O'Brien") 0 "text") = Some ("O", "Brien'@en").
Proof. repeat split; reflexivity. Qed.

(** ** C36 *)

(** Membership is decided by the last relevant operation. *)
Theorem C36_membership : forall h x, os_contains x (os_run h) = present h x.
Proof. exact contains_spec. Qed.
Print Assumptions C36_membership.

(** The elements are the inserted ones that were not removed since, each
    once, in the order of their insertion. *)
Theorem C36_iteration_order :
  forall h, exists P : list (nat * value),
    map snd P = os_run h /\ StronglySorted lt (map fst P) /\ forall i x, In (i, x) P <-> live h i x.
Proof. exact os_items. Qed.
Print Assumptions C36_iteration_order.

(** No two equal elements. *)
Theorem C36_no_duplicates :
  forall h i j x y, nth_error (os_run h) i = Some x -> nth_error (os_run h) j = Some y -> py_eq x y = true -> i = j.
Proof.
  assert (G : forall h, ForallOrdPairs (fun x y => py_eq x y = false) (os_run h)).
  { assert (Happ : forall l x, ForallOrdPairs (fun x y => py_eq x y = false) l ->
      (forall y, In y l -> py_eq y x = false) -> ForallOrdPairs (fun x y => py_eq x y = false) (l ++ [x])).
    { induction l as [|a l IH]; intros x Hl Hx; simpl; [repeat constructor|].
      inversion Hl; subst. constructor; [|apply IH; auto; intros; apply Hx; now right].
      apply Forall_app. split; auto. constructor; auto. apply Hx. now left. }
    induction h as [|o h IH] using rev_ind; [constructor|]. rewrite os_run_snoc. destruct o; simpl.
    - unfold os_add. destruct (os_contains x (os_run h)) eqn:E; auto. apply Happ; auto.
      intros y Hy. apply not_true_iff_false. intros F. assert (os_contains x (os_run h) = true); [|congruence].
      apply existsb_exists. eauto.
    - unfold os_discard. induction IH as [|a l Ha Hl IHl]; simpl; [constructor|].
      destruct (negb (py_eq a x)); auto. constructor; auto. apply Forall_forall. intros y Hy. apply filter_In in Hy.
      rewrite Forall_forall in Ha. apply Ha. tauto.
    - constructor. }
  intros h i j x y Hi Hj Hxy.
  assert (K : forall l i j x y, ForallOrdPairs (fun x y => py_eq x y = false) l -> i < j ->
    nth_error l i = Some x -> nth_error l j = Some y -> py_eq x y = false).
  { clear. induction l as [|a l IH]; intros i j x y Hl Hij Hi Hj; [destruct i; discriminate|].
    inversion Hl as [|? ? Ha Hl']; subst. destruct i as [|i], j as [|j]; try lia; simpl in *.
    - injection Hi as <-. rewrite Forall_forall in Ha. apply Ha. eapply nth_error_In; eauto.
    - apply (IH i j); auto. lia. }
  destruct (Nat.lt_trichotomy i j) as [Hlt|[Heq|Hlt]]; auto.
  - rewrite (K _ i j x y (G h) Hlt Hi Hj) in Hxy. discriminate.
  - rewrite py_eq_sym, (K _ j i y x (G h) Hlt Hj Hi) in Hxy. discriminate.
Qed.
Print Assumptions C36_no_duplicates.

(** s[i] is the i-th of these elements; a position after the last one is an
    IndexError, and positions from the end are a ValueError. *)
Theorem C36_positions :
  forall h, exists P : list (nat * value),
    StronglySorted lt (map fst P) /\ (forall k x, In (k, x) P <-> live h k x) /\
    os_len (os_run h) = length P /\
    forall i : Z,
      (i < 0 -> os_getitem i (os_run h) = Exn ValueErr)%Z /\
      (Z.of_nat (length P) <= i -> os_getitem i (os_run h) = Exn IndexErr)%Z /\
      (0 <= i -> forall k x, nth_error P (Z.to_nat i) = Some (k, x) -> os_getitem i (os_run h) = Ok x)%Z.
Proof.
  intros h. destruct (os_items h) as (P & E & Hs & Hl). exists P. split; auto. split; auto.
  rewrite <- E. unfold os_len. rewrite map_length. split; auto.
  intros i. unfold os_getitem. destruct (Z.ltb_spec i 0) as [Hi|Hi].
  - split; auto. split; intros; lia.
  - split; [lia|]. split.
    + intros Hle. rewrite (proj2 (nth_error_None _ _)); auto. rewrite map_length. lia.
    + intros _ k x Hx. rewrite (map_nth_error snd _ _ Hx). reflexivity.
Qed.
Print Assumptions C36_positions.

Example C36_example :
  let h := [OsAdd (VInt 1); OsAdd (VStr "a"); OsAdd (VInt 1); OsDiscard (VInt 1); OsAdd (VInt 2); OsAdd (VInt 1)] in
  os_run h = [VStr "a"; VInt 2; VInt 1] /\ present h (VInt 1) = true /\ live h 5 (VInt 1).
Proof.
  split; [reflexivity|]. split; [reflexivity|]. split; [reflexivity|]. split; [reflexivity|].
  intros j o Hj Ho. do 6 (destruct j as [|j]; [lia|]). destruct j; discriminate.
Qed.

(** ** C37 *)

(** The import is exactly: for every non-empty row after the header, in
    order, one insert of the elements that have a header. *)
Theorem C37_one_insert_per_row :
  forall W (insert : string -> list string -> list value -> M W unit) t blanks header rows w,
    Forall (fun r => r = []) blanks -> header <> [] ->
    csv_import insert t (blanks ++ header :: rows) w
    = inserts insert t header (map (fun r => texts (firstn (length header) r)) (filter nonempty rows)) w.
Proof.
  intros W insert t blanks header rows w Hb Hh. unfold csv_import.
  induction Hb as [|b blanks -> _ IH]; simpl; auto.
  destruct header; [congruence|]. apply csv_loop_rows.
Qed.
Print Assumptions C37_one_insert_per_row.

(** With the in-memory data source, the table afterwards has exactly these
    records, after those that it had. *)
Theorem C37_imported_records :
  forall t header rows (s : sds_store), header <> [] ->
    exists s', csv_import (fun t cs vs s => (Ok tt, sds_insert t cs vs s)) t (header :: rows) s = (Ok tt, s') /\
      opt_records (sds_get t s')
      = opt_records (sds_get t s) ++ map (fun r => create_dict header (texts (firstn (length header) r))) (filter nonempty rows).
Proof.
  intros t header rows s Hh.
  pose proof (C37_one_insert_per_row sds_store (fun t cs vs s => (Ok tt, sds_insert t cs vs s)) t [] header rows s (Forall_nil _) Hh) as H.
  cbn [app] in H. rewrite H. clear H. revert s.
  induction (filter nonempty rows) as [|r rs IH]; intros s.
  - exists s. split; auto. now rewrite app_nil_r.
  - cbn [map inserts]. unfold bind.
    destruct (IH (sds_insert t header (texts (firstn (length header) r)) s)) as (s' & H1 & H2). exists s'. split; auto.
    rewrite H2, sds_get_insert, String.eqb_refl, <- app_assoc. reflexivity.
Qed.
Print Assumptions C37_imported_records.

(** The deviation: a row that is shorter than the header aborts an import
    into Sqlite; the rows before it stay. *)
Theorem C37_short_row_aborts_sqlite_import_refuted :
  forall t header row rest c,
    sql_name t = true -> names header -> row <> [] -> length row < length header ->
    fst (csv_import sq_insert t (header :: row :: rest) c) = Exn DbErr.
Proof.
  intros t header row rest c Ht Hn Hr Hl.
  assert (Hh : header <> []) by (intros ->; simpl in Hl; lia).
  pose proof (C37_one_insert_per_row conn sq_insert t [] header (row :: rest) c (Forall_nil _) Hh) as H.
  cbn [app] in H. rewrite H. destruct row as [|e row]; [congruence|]. cbn [filter nonempty map inserts].
  rewrite firstn_all2 by lia.
  assert (Ht' : texts (e :: row) <> []) by discriminate.
  assert (Hs : sql_values (texts (e :: row)) = Some (texts (e :: row))).
  { apply storable_values. unfold texts. clear. induction (e :: row); auto. }
  assert (Hne : Nat.eqb (length (texts (e :: row))) (length header) = false).
  { apply Nat.eqb_neq. unfold texts. rewrite map_length. lia. }
  assert (Hx : exists d, execute (insert_text t header (texts (e :: row))) (texts (e :: row)) (current c) = (Exn DbErr, d)).
  { unfold execute. rewrite parse_insert, Hs by auto. cbn [run_stmt].
    destruct (db_get t (current c)) as [x|]; [|eauto]. rewrite Hne, andb_false_r. cbn [andb]. eauto. }
  destruct Hx as (d & Hx). unfold bind at 1. unfold sq_insert, bind at 1. unfold run_sql. rewrite Hx. reflexivity.
Qed.
Print Assumptions C37_short_row_aborts_sqlite_import_refuted.

Example C37_example :
  snd (csv_import (fun t cs vs s => (Ok tt, sds_insert t cs vs s)) "p" [[]; ["a"; "b"]; ["1"; "2"]; []; ["3"; "4"; "5"]] [])
  = [("p", [[("a", VStr "1"); ("b", VStr "2")]; [("a", VStr "3"); ("b", VStr "4")]])] /\
  fst (csv_import sq_insert "p" [["a"; "b"]; ["1"]] (mkConn c32_db c32_db)) = Exn DbErr.
Proof. split; vm_compute; reflexivity. Qed.

(** ** C42 *)

Lemma run_sql_committed text params c : committed (snd (run_sql text params c)) = committed c.
Proof. unfold run_sql. now destruct (execute text params (current c)). Qed.
Lemma sq_do_committed o c : committed (snd (sq_do o c)) = committed c.
Proof.
  destruct o; simpl; unfold sq_insert, sq_delete, bind;
    match goal with |- context [run_sql ?x ?y c] => pose proof (run_sql_committed x y c); destruct (run_sql x y c) as [[]?] end; auto.
Qed.

(** No operation commits: whatever was written is gone when the connection
    is lost, unless the application commits. *)
Theorem C42_writes_are_lost_without_commit :
  forall h c, sq_reopen (snd (sq_run h c)) = sq_reopen c.
Proof.
  assert (H : forall h c, committed (snd (sq_run h c)) = committed c).
  { induction h as [|o h IH]; intros c; auto. simpl. unfold bind. pose proof (sq_do_committed o c) as Ho.
    destruct (sq_do o c) as [[u|e|] c1]; simpl in *; auto. now rewrite IH. }
  intros h c. unfold sq_reopen. now rewrite H.
Qed.
Print Assumptions C42_writes_are_lost_without_commit.

(** With a commit after the first part of a history, exactly that part
    survives the loss of the connection, whatever comes after it. *)
Theorem C42_commit_keeps_exactly_the_part_before_it :
  forall d h1 h2 t x columns values,
    fresh_tables d -> Forall (op_ok d) h1 ->
    db_get t d = Some x -> fits_table x t columns values ->
    let c1 := snd (sq_run h1 (mkConn d d)) in
    let c2 := sq_reopen (snd (sq_run h2 (sq_commit c1))) in
    sq_select t columns values c2 = (Ok (spec_select columns values (remaining t h1 [])), c2).
Proof.
  intros d h1 h2 t x columns values Hf Ho Hx Hft. cbv zeta.
  rewrite C42_writes_are_lost_without_commit.
  destruct (sq_run_spec d h1 (mkConn d d) (fun _ => []) (fresh_holds d Hf) Ho) as (c & H1 & H2 & H3).
  rewrite H1. cbn [snd]. specialize (H3 t). rewrite Hx in H3.
  assert (Hft' : fits_table (mkTbl (t_cols x) (t_unique x) (map (row_of (t_cols x)) (remaining t h1 []))) t columns values)
    by (destruct Hft; constructor; auto).
  rewrite (sq_select_run t _ columns values Hft' (remaining t h1 []) (sq_reopen (sq_commit c)) H3 eq_refl).
  reflexivity.
Qed.
Print Assumptions C42_commit_keeps_exactly_the_part_before_it.

Example C42_example :
  let c := snd (sq_run c32_history (mkConn c32_db c32_db)) in
  fst (sq_select "p" ["a"] [VNone] c) = Ok [[VInt 2]; [VInt 3]] /\
  fst (sq_select "p" ["a"] [VNone] (sq_reopen c)) = Ok [] /\
  fst (sq_select "p" ["a"] [VNone] (sq_reopen (snd (sq_run [SqDelete "p" ["a"] [VInt 2]] (sq_commit c))))) = Ok [[VInt 2]; [VInt 3]].
Proof. repeat split; vm_compute; reflexivity. Qed.

(** ** C43 *)

(** Two data sources that share a cache directory share their answers: the
    key has neither the address nor the language. *)
Theorem C43_shared_cache_mixes_sources_refuted :
  forall E lang1 lang2 (ask1 ask2 : string -> M E response) hash q s rows e',
    file_get (cache_key hash q) (files E s) = None ->
    do_select E lang1 ask1 q (endpoint E s) = (Ok rows, e') ->
    let s1 := snd (cached_select E lang1 ask1 hash NoFault q s) in
    forall f, cached_select E lang2 ask2 hash f q s1 = (Answered rows, s1).
Proof.
  intros E lang1 lang2 ask1 ask2 hash q s rows e' Hs Hd s1 f.
  assert (Hf : file_get (cache_key hash q) (files E s1) = Some (Complete rows)).
  { unfold s1, cached_select. rewrite Hs, Hd. simpl. now rewrite file_get_put, String.eqb_refl. }
  unfold cached_select. now rewrite Hf.
Qed.
Print Assumptions C43_shared_cache_mixes_sources_refuted.

(** Sources with disjoint file names (different directories) do not. *)
Theorem C43_separate_directories_are_independent :
  forall E lang1 (ask1 : string -> M E response) hash1 hash2 q1 q2 f s,
    (forall a b, hash1 a <> hash2 b) ->
    file_get (cache_key hash2 q2) (files E (snd (cached_select E lang1 ask1 hash1 f q1 s)))
    = file_get (cache_key hash2 q2) (files E s).
Proof.
  intros E lang1 ask1 hash1 hash2 q1 q2 f s Hh.
  destruct (file_get (cache_key hash2 q2) (files E s)) as [c|] eqn:Eg.
  - now apply select_keeps.
  - apply select_other; auto. unfold cache_key. intros F. symmetry in F. exact (Hh _ _ F).
Qed.
Print Assumptions C43_separate_directories_are_independent.

Example C43_example :
  let ask_nl := fun text (n : nat) => (Ok (RData [[("term1", VStr "naam")]]), S n) in
  let s1 := snd (cached_select nat "en" c33_ask (fun x => x) NoFault c33_q (mkSps nat [] 0)) in
  fst (do_select nat "nl" ask_nl c33_q 1) = Ok [[VStr "Q1"; VStr "naam"]] /\
  fst (cached_select nat "nl" ask_nl (fun x => x) NoFault c33_q s1) = Answered [[VStr "Q1"; VInt 0]] /\
  (forall a b : string, ("a/" ++ a)%string <> ("b/" ++ b)%string).
Proof. repeat split; try (vm_compute; reflexivity). intros a b. discriminate. Qed.
