(** * Reading the text of a CSV file

    Models what /repo/richard/data_source/CsvImporter.py 7-12 and 15 get
    from Python: [open(file_path)] in text mode, the lines of that file, and
    [csv.reader(csvfile, delimiter=',')] with the dialect [excel] (the quote
    character is the double quote, doubled inside quotes; no escape character; spaces are
    kept; not strict).  The reader follows the state machine of CPython's
    Modules/_csv.c ([parse_process_char], [Reader_iternext]).

    Simplifications: the text is the decoded one, of 8-bit characters (no
    decoding errors, no byte order mark); the character NUL, which Python
    3.10 refuses and 3.11 reads, is read.  The limit on the size of a field
    ([csv.field_size_limit()], 131072 characters unless changed) is a
    parameter. *)

From Coq Require Import String Ascii List Bool Arith Lia.
From Verif Require Import Py Effects SimpleDataSource.
Import ListNotations.
Local Open Scope string_scope.
Local Open Scope list_scope.
Local Open Scope monad_scope.

Definition LF : ascii := "010"%char.
Definition CR : ascii := "013"%char.
Definition comma : ascii := ","%char.
Definition quote : ascii := """"%char.

(** [open(file_path)]: with universal newlines, [\r\n] and [\r] become [\n]
    (CsvImporter.py 7) *)
Fixpoint universal (s : string) : string :=
  match s with
  | EmptyString => EmptyString
  | String c rest =>
      if Ascii.eqb c CR
      then String LF (match rest with
                      | String d rest' => if Ascii.eqb d LF then universal rest' else universal rest
                      | EmptyString => EmptyString
                      end)
      else String c (universal rest)
  end.

(** iteration over a text file: its lines, each with the [\n] that ends it *)
Fixpoint file_lines (s : string) : list string :=
  match s with
  | EmptyString => []
  | String c rest =>
      if Ascii.eqb c LF then String c EmptyString :: file_lines rest
      else match file_lines rest with
           | [] => [String c EmptyString]
           | l :: ls =>
               String c l :: ls
           end
  end.

(** _csv.c: [ParserState], without the states of the escape character *)
Inductive state := START_RECORD | START_FIELD | IN_FIELD | IN_QUOTED_FIELD | QUOTE_IN_QUOTED_FIELD | EAT_CRNL.

(** _csv.c: [ReaderObj], the part that changes *)
Record reader := mkReader { fields : list string; field : string; st : state }.

(** _csv.c: [parse_reset] *)
Definition parse_reset : reader := mkReader [] "" START_RECORD.

(** _csv.c: [_csv.Error] *)
Definition csv_error (msg : string) : exn := Raise msg.
Definition too_large := csv_error "field larger than field limit".
Definition stray_newline := csv_error "new-line character seen in unquoted field".

Section Reader.
  Variable limit : nat.

  (** _csv.c: [parse_save_field], and the state to go on with *)
  Definition save_field (s : state) (p : reader) : reader := mkReader (fields p ++ [field p]) "" s.
  Definition go (s : state) (p : reader) : reader := mkReader (fields p) (field p) s.
  (** _csv.c: [parse_add_char] *)
  Definition add_char (c : ascii) (s : state) (p : reader) : outcome reader :=
    if Nat.leb limit (String.length (field p)) then Exn too_large
    else Ok (mkReader (fields p) (field p ++ String c EmptyString) s).

  Definition newline (c : ascii) : bool := Ascii.eqb c LF || Ascii.eqb c CR.

  (** the end of a record within a line, or at the end of the line *)
  Definition end_record (c : option ascii) : state :=
    match c with None => START_RECORD | Some _ => EAT_CRNL end.
  Definition ends (c : option ascii) : bool :=
    match c with None => true | Some a => newline a end.

  (** _csv.c: [parse_process_char], state [START_FIELD] *)
  Definition start_field (c : option ascii) (p : reader) : outcome reader :=
    if ends c then Ok (save_field (end_record c) p)
    else match c with
         | None => Ok p
         | Some a =>
             if Ascii.eqb a quote then Ok (go IN_QUOTED_FIELD p)
             else if Ascii.eqb a comma then Ok (save_field START_FIELD p)
             else add_char a IN_FIELD p
         end.

  (** _csv.c: [parse_process_char]; [None] is the end of the line *)
  Definition process_char (c : option ascii) (p : reader) : outcome reader :=
    match st p with
    | START_RECORD =>
        match c with
        | None => Ok p
        | Some a => if newline a then Ok (go EAT_CRNL p) else start_field c p
        end
    | START_FIELD => start_field c p
    | IN_FIELD =>
        if ends c then Ok (save_field (end_record c) p)
        else match c with
             | None => Ok p
             | Some a => if Ascii.eqb a comma then Ok (save_field START_FIELD p) else add_char a IN_FIELD p
             end
    | IN_QUOTED_FIELD =>
        match c with
        | None => Ok p
        | Some a => if Ascii.eqb a quote then Ok (go QUOTE_IN_QUOTED_FIELD p) else add_char a IN_QUOTED_FIELD p
        end
    | QUOTE_IN_QUOTED_FIELD =>
        match c with
        | Some a =>
            if Ascii.eqb a quote then add_char a IN_QUOTED_FIELD p
            else if Ascii.eqb a comma then Ok (save_field START_FIELD p)
            else if newline a then Ok (save_field EAT_CRNL p)
            else add_char a IN_FIELD p
        | None => Ok (save_field START_RECORD p)
        end
    | EAT_CRNL =>
        match c with
        | None => Ok (go START_RECORD p)
        | Some a => if newline a then Ok p else Exn stray_newline
        end
    end.

  (** _csv.c: [Reader_iternext], one line and its end *)
  Fixpoint process_line (l : string) (p : reader) : outcome reader :=
    match l with
    | EmptyString => process_char None p
    | String c rest => match process_char (Some c) p with
                       | Ok p' => process_line rest p'
                       | Exn e => Exn e
                       | OutOfFuel => OutOfFuel
                       end
    end.

  (** _csv.c: [Reader_iternext] again and again: the rows that are read, and
      the exception that ended the reading, if any *)
  Definition is_state (a b : state) : bool :=
    match a, b with
    | START_RECORD, START_RECORD | START_FIELD, START_FIELD | IN_FIELD, IN_FIELD
    | IN_QUOTED_FIELD, IN_QUOTED_FIELD | QUOTE_IN_QUOTED_FIELD, QUOTE_IN_QUOTED_FIELD | EAT_CRNL, EAT_CRNL => true
    | _, _ => false
    end.
  Fixpoint read_rows (lines : list string) (p : reader) : list (list string) * outcome unit :=
    match lines with
    | [] => (if negb (String.eqb (field p) "") || is_state (st p) IN_QUOTED_FIELD then [fields p ++ [field p]] else [], Ok tt)
    | l :: rest =>
        match process_line l p with
        | Ok p' => if is_state (st p') START_RECORD
                   then let (rows, o) := read_rows rest parse_reset in (fields p' :: rows, o)
                   else read_rows rest p'
        | Exn e => ([], Exn e)
        | OutOfFuel => ([], OutOfFuel)
        end
    end.

  Definition csv_read (text : string) : list (list string) * outcome unit :=
    read_rows (file_lines (universal text)) parse_reset.

  (** CsvImporter.py 6-30: [import_table_from_file] on a file with this text.
      The rows come one at a time: those before an error are inserted. *)
  Definition csv_import_text {W} (insert : string -> list string -> list value -> M W unit) (table text : string) : M W unit :=
    let (rows, o) := csv_read text in
    csv_import insert table rows ;;; (fun w => (o, w)).
End Reader.
