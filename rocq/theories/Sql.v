(** * A small SQL engine: the part of Sqlite that richard's statements use

    There is no file in /repo for this: it models what [sqlite3] does with
    the statements of /repo/richard/data_source/Sqlite3DataSource.py.  The
    statement is handed over as text, so this has a lexer, a parser and an
    evaluator.

    Simplifications (see DESIGN.md): names are case-sensitive; columns have
    no type affinity; rows come in insertion order; integers are unbounded;
    only the words of this subset are reserved. *)

From Coq Require Import ZArith String Ascii List Bool.
From Verif Require Import Py Effects InferenceModule.
Import ListNotations.
Local Open Scope string_scope.
Local Open Scope list_scope.

(** ** text to tokens *)
Inductive token : Type := TWord (s : string) | TComma | TOpen | TClose | TEq | TMark.

Definition symbol (c : ascii) : option (list token) :=
  if Ascii.eqb c " " then Some []
  else if Ascii.eqb c "," then Some [TComma]
  else if Ascii.eqb c "(" then Some [TOpen]
  else if Ascii.eqb c ")" then Some [TClose]
  else if Ascii.eqb c "=" then Some [TEq]
  else if Ascii.eqb c "?" then Some [TMark]
  else None.

Definition flush (cur : string) (l : list token) : list token :=
  match cur with EmptyString => l | _ => TWord cur :: l end.

Fixpoint lex (s : string) (cur : string) : option (list token) :=
  match s with
  | EmptyString => Some (flush cur [])
  | String c rest =>
      if word_char c then lex rest (String.append cur (String c ""))
      else match symbol c, lex rest "" with
           | Some t, Some l => Some (flush cur (t ++ l))
           | _, _ => None
           end
  end.

(** ** tokens to statements *)
Definition upper_char (c : ascii) : ascii :=
  let n := nat_of_ascii c in
  if (Nat.leb 97 n && Nat.leb n 122) then ascii_of_nat (n - 32) else c.
Fixpoint upper (s : string) : string :=
  match s with EmptyString => "" | String c t => String (upper_char c) (upper t) end.

Definition reserved : list string :=
  ["SELECT"; "FROM"; "WHERE"; "TRUE"; "AND"; "INSERT"; "OR"; "IGNORE"; "INTO"; "VALUES"; "DELETE"].
Definition is_reserved (s : string) : bool := existsb (String.eqb (upper s)) reserved.
Definition digit (c : ascii) : bool := let n := nat_of_ascii c in Nat.leb 48 n && Nat.leb n 57.
(** a plain SQL name *)
Definition sql_name (s : string) : bool :=
  match s with
  | EmptyString => false
  | String c _ => negb (digit c) && all_word s && negb (is_reserved s)
  end.

(** [conds]: the columns that are compared with the parameters, in order *)
Inductive stmt : Type :=
| SSelect (cols : list string) (table : string) (conds : list string)
| SInsert (table : string) (cols : list string) (marks : nat)
| SDelete (table : string) (conds : list string).

Definition p_kw (k : string) (l : list token) : option (list token) :=
  match l with
  | TWord w :: rest => if String.eqb (upper w) k then Some rest else None
  | _ => None
  end.
Definition p_name (l : list token) : option (string * list token) :=
  match l with
  | TWord w :: rest => if sql_name w then Some (w, rest) else None
  | _ => None
  end.
(** name , name , ... *)
Fixpoint p_names (fuel : nat) (l : list token) : option (list string * list token) :=
  match fuel with
  | O => None
  | S fuel' =>
      match p_name l with
      | Some (n, TComma :: rest) =>
          match p_names fuel' rest with Some (ns, r) => Some (n :: ns, r) | None => None end
      | Some (n, rest) => Some ([n], rest)
      | None => None
      end
  end.
(** ? , ? , ... *)
Fixpoint p_marks (l : list token) : option (nat * list token) :=
  match l with
  | TMark :: TComma :: rest => match p_marks rest with Some (n, r) => Some (S n, r) | None => None end
  | TMark :: rest => Some (1, rest)
  | _ => None
  end.
(** a condition: [TRUE] or [name = ?] *)
Definition p_cond (l : list token) : option (list string * list token) :=
  match p_kw "TRUE" l with
  | Some rest => Some ([], rest)
  | None =>
      match p_name l with
      | Some (n, TEq :: TMark :: rest) => Some ([n], rest)
      | _ => None
      end
  end.
(** conditions up to the end *)
Fixpoint p_conds (fuel : nat) (l : list token) : option (list string) :=
  match fuel with
  | O => None
  | S fuel' =>
      match p_cond l with
      | Some (cs, []) => Some cs
      | Some (cs, rest) =>
          match p_kw "AND" rest with
          | Some rest' => match p_conds fuel' rest' with Some ds => Some (cs ++ ds) | None => None end
          | None => None
          end
      | None => None
      end
  end.
Definition p_token (t : token) (l : list token) : option (list token) :=
  match t, l with
  | TOpen, TOpen :: rest => Some rest
  | TClose, TClose :: rest => Some rest
  | _, _ => None
  end.

Notation "'let?' p ':=' o 'in' e" := (match o with Some p => e | None => None end)
  (at level 200, p pattern, o at level 100, e at level 200).

Definition p_select (l : list token) : option stmt :=
  let? l := p_kw "SELECT" l in
  let? (cols, l) := p_names (length l) l in
  let? l := p_kw "FROM" l in
  let? (t, l) := p_name l in
  let? l := p_kw "WHERE" l in
  let? conds := p_conds (length l) l in
  Some (SSelect cols t conds).
Definition p_insert (l : list token) : option stmt :=
  let? l := p_kw "INSERT" l in
  let? l := p_kw "OR" l in
  let? l := p_kw "IGNORE" l in
  let? l := p_kw "INTO" l in
  let? (t, l) := p_name l in
  let? l := p_token TOpen l in
  let? (cols, l) := p_names (length l) l in
  let? l := p_token TClose l in
  let? l := p_kw "VALUES" l in
  let? l := p_token TOpen l in
  let? (n, l) := p_marks l in
  let? l := p_token TClose l in
  match l with [] => Some (SInsert t cols n) | _ => None end.
Definition p_delete (l : list token) : option stmt :=
  let? l := p_kw "DELETE" l in
  let? l := p_kw "FROM" l in
  let? (t, l) := p_name l in
  let? l := p_kw "WHERE" l in
  let? conds := p_conds (length l) l in
  Some (SDelete t conds).

Definition parse_sql (text : string) : option stmt :=
  let? l := lex text "" in
  match p_select l with
  | Some s => Some s
  | None => match p_insert l with Some s => Some s | None => p_delete l end
  end.

(** ** evaluation *)

(** what can be bound to a parameter; booleans become integers *)
Definition sql_value (v : value) : option value :=
  match v with
  | VNone | VInt _ | VFloat _ | VStr _ => Some v
  | VBool b => Some (VInt (if b then 1 else 0))
  | _ => None
  end.
Fixpoint sql_values (l : list value) : option (list value) :=
  match l with
  | [] => Some []
  | v :: t => let? v' := sql_value v in let? t' := sql_values t in Some (v' :: t')
  end.

(** [a = b]: NULL is equal to nothing *)
Definition sql_eq (a b : value) : bool := negb (is_none a) && negb (is_none b) && py_eq a b.

(** a table: its columns, the groups of columns that must be unique, its rows *)
Record tbl : Type := mkTbl { t_cols : list string; t_unique : list (list string); t_rows : list (list value) }.
Definition sqldb : Type := list (string * tbl).

Fixpoint db_get (t : string) (d : sqldb) : option tbl :=
  match d with
  | [] => None
  | (k, x) :: rest => if String.eqb t k then Some x else db_get t rest
  end.
Fixpoint db_put (t : string) (x : tbl) (d : sqldb) : sqldb :=
  match d with
  | [] => []
  | (k, y) :: rest => if String.eqb t k then (k, x) :: rest else (k, y) :: db_put t x rest
  end.

Definition has_col (cols : list string) (c : string) : bool := existsb (String.eqb c) cols.

(** the field of a row; fields without a value are NULL *)
Fixpoint cell (cols : list string) (row : list value) (c : string) : value :=
  match cols, row with
  | k :: cols', v :: row' => if String.eqb c k then v else cell cols' row' c
  | _, _ => VNone
  end.

(** [c1 = p1 AND c2 = p2 ...] *)
Definition where_ok (cols conds : list string) (params : list value) (row : list value) : bool :=
  forallb (fun cp => sql_eq (cell cols row (fst cp)) (snd cp)) (combine conds params).

(** a new row conflicts with an old one on some unique group *)
Definition conflicts (x : tbl) (row : list value) : bool :=
  existsb (fun group => existsb (fun old =>
    forallb (fun c => sql_eq (cell (t_cols x) old c) (cell (t_cols x) row c)) group) (t_rows x)) (t_unique x).

Definition run_stmt (s : stmt) (params : list value) (d : sqldb) : outcome (list (list value)) * sqldb :=
  match s with
  | SSelect cols t conds =>
      match db_get t d with
      | Some x =>
          if forallb (has_col (t_cols x)) (cols ++ conds) && Nat.eqb (length params) (length conds) then
            (Ok (map (fun row => map (cell (t_cols x) row) cols)
                     (filter (where_ok (t_cols x) conds params) (t_rows x))), d)
          else (Exn DbErr, d)
      | None => (Exn DbErr, d)
      end
  | SInsert t cols marks =>
      match db_get t d with
      | Some x =>
          if forallb (has_col (t_cols x)) cols && Nat.eqb marks (length cols) && Nat.eqb (length params) marks then
            let row := map (cell cols params) (t_cols x) in
            if conflicts x row then (Ok [], d)
            else (Ok [], db_put t (mkTbl (t_cols x) (t_unique x) (t_rows x ++ [row])) d)
          else (Exn DbErr, d)
      | None => (Exn DbErr, d)
      end
  | SDelete t conds =>
      match db_get t d with
      | Some x =>
          if forallb (has_col (t_cols x)) conds && Nat.eqb (length params) (length conds) then
            (Ok [], db_put t (mkTbl (t_cols x) (t_unique x)
                       (filter (fun row => negb (where_ok (t_cols x) conds params row)) (t_rows x))) d)
          else (Exn DbErr, d)
      | None => (Exn DbErr, d)
      end
  end.

(** [cursor.execute(text, params)] *)
Definition execute (text : string) (params : list value) (d : sqldb) : outcome (list (list value)) * sqldb :=
  match parse_sql text, sql_values params with
  | Some s, Some ps => run_stmt s ps d
  | _, _ => (Exn DbErr, d)
  end.
