(** * C101: the text of a CSV file means its rows *)

From Coq Require Import String Ascii List Bool Arith Lia.
From Verif Require Import Py Effects SimpleDataSource SimpleDataProofs Sql SqliteDataSource Csv CsvSpec LexerProofs CsvProofs CsvProofs2 PropData.
Import ListNotations.
Local Open Scope string_scope.
Local Open Scope list_scope.

Definition fits (limit : nat) : list (list string) -> Prop := Forall (Forall (fun v => String.length v <= limit)).

Lemma fits_bound rows : exists limit, fits limit rows.
Proof.
  exists (list_sum (map (fun vs => list_sum (map String.length vs)) rows)). unfold fits.
  assert (H : forall l (x : nat), In x l -> x <= list_sum l).
  { induction l as [|y l IH]; intros x Hx; [contradiction|]. destruct Hx as [->|Hx]; simpl; [lia|]. specialize (IH x Hx). lia. }
  apply Forall_forall. intros vs Hvs. apply Forall_forall. intros v Hv.
  transitivity (list_sum (map String.length vs)); apply H; [now apply in_map|].
  now apply (in_map (fun vs => list_sum (map String.length vs))).
Qed.

(** Every text is a table in exactly one way, and these are the rows that
    are read.  The only error is a cell that is longer than the limit: the
    rows before it are read. *)
Theorem C101_every_text_is_read_as_its_table :
  forall limit text, exists s rows,
    newlines text s /\ table s rows /\
    (forall s' rows', newlines text s' -> table s' rows' -> rows' = rows) /\
    (fits limit rows -> csv_read limit text = (rows, Ok tt)) /\
    (forall before row rest, rows = before ++ row :: rest -> fits limit before ->
       Exists (fun v => limit < String.length v) row -> csv_read limit text = (before, Exn too_large)).
Proof.
  intros limit text. exists (universal text).
  destruct (table_exists _ (universal text) (le_n _)) as (rows & Ht). exists rows.
  pose proof (universal_newlines _ text (le_n _)) as Hn. repeat split; auto.
  - intros s' rows' Hn' Ht'. destruct (fits_bound (rows ++ rows')) as (k & Hk).
    unfold fits in Hk. rewrite Forall_app in Hk. destruct Hk as [Hk1 Hk2].
    pose proof (csv_read_table k text _ _ Hn Ht) as H1. pose proof (csv_read_table k text _ _ Hn' Ht') as H2.
    rewrite readable_short in H1, H2 by auto. congruence.
  - intros Hf. rewrite (csv_read_table limit text _ _ Hn Ht). now apply readable_short.
  - intros before row rest -> Hf He. rewrite (csv_read_table limit text _ _ Hn Ht). now apply readable_long.
Qed.
Print Assumptions C101_every_text_is_read_as_its_table.

(** What [csv.writer] wrote is read back, except that the line ends inside
    the fields become single line feeds. *)
Theorem C101_written_tables_are_read_back :
  forall limit rows rows', Forall2 (Forall2 newlines) rows rows' -> fits limit rows' ->
    csv_read limit (csv_write rows) = (rows', Ok tt).
Proof.
  intros limit rows rows' H Hf.
  destruct (written_table rows rows' "" "" [] H nl_end table_end) as (s & H1 & H2). rewrite str_app_nil in H1. rewrite app_nil_r in H2.
  rewrite (csv_read_table limit _ _ _ H1 H2). now apply readable_short.
Qed.
Print Assumptions C101_written_tables_are_read_back.

(** so without carriage returns it is read back unchanged *)
Theorem C101_round_trip :
  forall limit rows, fits limit rows -> Forall (Forall (fun v => ~ has v cr)) rows ->
    csv_read limit (csv_write rows) = (rows, Ok tt).
Proof.
  intros limit rows Hf Hc. apply C101_written_tables_are_read_back; auto.
  clear Hf. induction Hc as [|vs rows Hv _ IH]; constructor; auto.
  induction Hv as [|v vs Hv _ IHv]; constructor; auto. clear - Hv.
  induction v as [|c v IH]; [constructor|]. rewrite has_cons in Hv. apply (nl_other c); [tauto|]. apply IH. tauto.
Qed.
Print Assumptions C101_round_trip.

(** The deviation: a field with a carriage return is never read back as it
    was written (the file is opened without [newline='']). *)
Theorem C101_carriage_returns_are_lost_refuted :
  forall limit rows vs v, In vs rows -> In v vs -> has v cr ->
    csv_read limit (csv_write rows) <> (rows, Ok tt).
Proof.
  intros limit rows vs v Hvs Hv Hc E.
  assert (Hn : forall s, exists t, newlines s t) by (intros s; exists (universal s); exact (universal_newlines _ s (le_n _))).
  assert (Hu : Forall2 (Forall2 newlines) rows (map (map universal) rows)).
  { clear. induction rows as [|vs rows IH]; constructor; auto. induction vs as [|v vs IHv]; constructor; auto.
    exact (universal_newlines _ v (le_n _)). }
  destruct (written_table rows _ "" "" [] Hu nl_end table_end) as (s & H1 & H2). rewrite str_app_nil in H1. rewrite app_nil_r in H2.
  pose proof (csv_read_table limit _ _ _ H1 H2) as H3. rewrite E in H3.
  assert (H4 : forall l l', readable limit l = (l', Ok tt) -> l' = l).
  { induction l as [|x l IH]; intros l' H; cbn [readable] in H; [now injection H|]. unfold then_row in H.
    destruct (forallb (short limit) x); [|discriminate]. destruct (readable limit l) as [r o]. injection H as <- ->. now rewrite (IH r eq_refl). }
  symmetry in H3. apply H4 in H3.
  assert (H5 : no_cr v).
  { rewrite H3 in Hvs. apply in_map_iff in Hvs. destruct Hvs as (us & <- & _). apply in_map_iff in Hv. destruct Hv as (u & <- & _).
    exact (universal_no_cr _ u (le_n _)). }
  clear - Hc H5. induction v as [|c v IH]; [exact (has_nil _ Hc)|]. rewrite has_cons in Hc. destruct H5 as [Hx Hy], Hc as [->|Hc]; auto.
Qed.
Print Assumptions C101_carriage_returns_are_lost_refuted.

(** The deviation: a quote at the start of a field that is never closed makes
    the rest of the file one field, without an error. *)
Theorem C101_open_quote_swallows_the_rest_refuted :
  forall limit rows rest, fits limit rows -> Forall (Forall (fun v => ~ has v cr)) rows ->
    ~ has rest (ascii_of_nat 34) -> ~ has rest cr -> String.length rest <= limit ->
    csv_read limit (csv_write rows ++ QUOTE ++ rest)%string = (rows ++ [[rest]], Ok tt).
Proof.
  intros limit rows rest Hf Hc Hq Hr Hl.
  assert (Hsame : forall v, ~ has v cr -> newlines v v).
  { induction v as [|c v IH]; intros Hv; [constructor|]. rewrite has_cons in Hv. apply (nl_other c); [tauto|]. apply IH. tauto. }
  assert (Hu : Forall2 (Forall2 newlines) rows rows).
  { clear Hf. induction Hc as [|vs rows Hv _ IH]; constructor; auto. induction Hv; constructor; auto. }
  assert (Hd : doubled rest rest).
  { clear - Hq. induction rest as [|c rest IH]; [constructor|]. rewrite has_cons in Hq. apply (d_other c); [|apply IH; tauto].
    intros E. injection E as ->. tauto. }
  destruct (written_table rows rows (QUOTE ++ rest)%string (QUOTE ++ rest)%string [[rest]] Hu) as (s & H1 & H2).
  - apply (nl_other (ascii_of_nat 34)); [discriminate|auto].
  - apply table_unclosed. now constructor.
  - rewrite (csv_read_table limit _ _ _ H1 H2). apply readable_short. unfold fits in *. apply Forall_app. split; auto.
Qed.
Print Assumptions C101_open_quote_swallows_the_rest_refuted.

(** Importing a file: one insert per row after the header, in order; a cell
    that is too long ends the import after the rows before it. *)
Theorem C101_imported_text :
  forall limit W (insert : string -> list string -> list value -> M W unit) t text s header rows w,
    newlines text s -> table s (header :: rows) -> header <> [] ->
    (fits limit (header :: rows) ->
       csv_import_text limit insert t text w
       = inserts insert t header (map (fun r => texts (firstn (length header) r)) (filter nonempty rows)) w) /\
    (forall before row rest, rows = before ++ row :: rest -> fits limit (header :: before) ->
       Exists (fun v => limit < String.length v) row ->
       csv_import_text limit insert t text w
       = bind (inserts insert t header (map (fun r => texts (firstn (length header) r)) (filter nonempty before)))
              (fun _ w' => (Exn too_large, w')) w).
Proof.
  intros limit W insert t text s header rows w Hn Ht Hh. unfold csv_import_text.
  rewrite (csv_read_table limit _ _ _ Hn Ht). split.
  - intros Hf. rewrite readable_short by exact Hf. unfold bind.
    pose proof (C37_one_insert_per_row W insert t [] header rows w (Forall_nil _) Hh) as H. cbn [app] in H. rewrite H.
    destruct (inserts insert t header _ w) as [[[]| |] ?]; reflexivity.
  - intros before row rest -> Hf He.
    change (header :: before ++ row :: rest) with ((header :: before) ++ row :: rest). rewrite readable_long by auto. unfold bind.
    pose proof (C37_one_insert_per_row W insert t [] header before w (Forall_nil _) Hh) as H. cbn [app] in H. rewrite H. reflexivity.
Qed.
Print Assumptions C101_imported_text.

(** From the written file to the records: with the in-memory data source. *)
Theorem C101_written_records_are_stored :
  forall limit t header rows (s : sds_store),
    fits limit (header :: rows) -> Forall (Forall (fun v => ~ has v cr)) (header :: rows) -> header <> [] ->
    exists s', csv_import_text limit (fun t cs vs s => (Ok tt, sds_insert t cs vs s)) t (csv_write (header :: rows)) s = (Ok tt, s') /\
      opt_records (sds_get t s')
      = opt_records (sds_get t s) ++ map (fun r => create_dict header (texts (firstn (length header) r))) (filter nonempty rows).
Proof.
  intros limit t header rows s Hf Hc Hh. unfold csv_import_text. rewrite C101_round_trip by auto. unfold bind.
  destruct (C37_imported_records t header rows s Hh) as (s' & H1 & H2). rewrite H1. now exists s'.
Qed.
Print Assumptions C101_written_records_are_stored.

Example C101_example :
  let file := ("id,name" ++ str cr ++ NL ++ NL ++ "1," ++ quoted_field ("a, " ++ quoted_field "b" ++ NL ++ "c") ++ "d" ++ str cr ++ "2" ++ NL)%string in
  csv_read 100 file = ([["id"; "name"]; []; ["1"; ("a, " ++ quoted_field "b" ++ NL ++ "cd")%string]; ["2"]], Ok tt) /\
  csv_read 3 file = ([], Exn too_large) /\
  csv_read 100 (csv_write [["a"; ""]; []; [""]; ["x,y"; ("l" ++ NL ++ "m")%string]]) = ([["a"; ""]; []; [""]; ["x,y"; ("l" ++ NL ++ "m")%string]], Ok tt) /\
  csv_read 100 (csv_write [["a"; (str cr ++ NL)%string]]) = ([["a"; NL]], Ok tt) /\
  csv_read 100 (csv_write [["a"; "b"]] ++ QUOTE ++ "c" ++ NL ++ "d,e" ++ NL)%string = ([["a"; "b"]; [("c" ++ NL ++ "d,e" ++ NL)%string]], Ok tt) /\
  fits 100 [["a"; ""]; []; [""]; ["x,y"; ("l" ++ NL ++ "m")%string]] /\
  has (str cr ++ NL)%string cr.
Proof.
  cbv zeta. repeat match goal with |- _ /\ _ => split; [try (vm_compute; reflexivity)|] end.
  - unfold fits. repeat constructor; simpl; lia.
  - now exists "", NL.
Qed.
