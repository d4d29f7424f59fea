(** * A SPARQL endpoint

    The other side of /repo/richard/data_source/SparqlDataSource.py: what the
    SPARQL 1.1 recommendation says about the texts that the data source sends.
    This is not code of the repository.  It covers SELECT with triple patterns
    and FILTER(LANG(..) = ".."), with keywords in upper case; texts outside of
    this grammar are refused.  Language tags are compared as they are. *)

From Coq Require Import ZArith String Ascii List Bool.
From Verif Require Import Py.
Import ListNotations.
Local Open Scope string_scope.
Local Open Scope list_scope.

(** ** The graph *)

(** a resource, or a text in a language *)
Inductive term : Type := Iri (i : string) | Text (s lang : string).
Definition term_eqb (a b : term) : bool :=
  match a, b with
  | Iri i, Iri j => String.eqb i j
  | Text s l, Text t m => String.eqb s t && String.eqb l m
  | _, _ => false
  end.
Record triple : Type := mkTriple { t_subject : term; t_predicate : term; t_object : term }.

(** ** The words of a query (SPARQL 1.1, 19.8) *)

Inductive token : Type :=
| TWord (s : string)
| TVar (s : string)
| TIri (s : string)
| TText (s lang : string)
| TString (s : string)
| TPunct (c : ascii).

Definition code (c : ascii) : nat := nat_of_ascii c.
Definition among (c : ascii) (l : list nat) : bool := existsb (Nat.eqb (code c)) l.
(** WS *)
Definition is_space (c : ascii) : bool := among c [32; 9; 13; 10].
(** the dot, brackets, parentheses, the equals sign and the asterisk *)
Definition is_punct (c : ascii) : bool := among c [46; 123; 125; 40; 41; 61; 42].
(** letters, digits, colon, hyphen and underscore *)
Definition is_name_char (c : ascii) : bool :=
  let n := code c in
  (Nat.leb 48 n && Nat.leb n 58) || (Nat.leb 65 n && Nat.leb n 90) || (Nat.leb 97 n && Nat.leb n 122)
  || Nat.eqb n 45 || Nat.eqb n 95.
(** IRIREF: not an angle or curly bracket, quote, bar, caret, backquote or
    backslash, not a space or a control character *)
Definition is_iri_char (c : ascii) : bool :=
  Nat.ltb 32 (code c) && negb (among c [60; 62; 34; 123; 125; 124; 94; 96; 92]).
(** a character of a text between quotes *)
Definition is_text_char (quote : nat) (c : ascii) : bool := negb (among c [quote; 92; 10; 13]).
(** ECHAR *)
Definition escaped (c : ascii) : option ascii :=
  match code c with
  | 116 => Some (ascii_of_nat 9)
  | 98 => Some (ascii_of_nat 8)
  | 110 => Some (ascii_of_nat 10)
  | 114 => Some (ascii_of_nat 13)
  | 102 => Some (ascii_of_nat 12)
  | 92 | 34 | 39 => Some c
  | _ => None
  end.

Inductive mode : Type :=
| MStart
| MWord (s : string)
| MVar (s : string)
| MIri (s : string)
| MQuote (quote : nat) (s : string)
| MEscape (quote : nat) (s : string)
| MAt (s : string)
| MLang (s lang : string).

Definition push (s : string) (c : ascii) : string := s ++ String c "".
(** the word that ends here *)
Definition flush (m : mode) : option (list token) :=
  match m with
  | MStart => Some []
  | MWord s => Some [TWord s]
  | MVar EmptyString => None
  | MVar s => Some [TVar s]
  | MLang _ EmptyString => None
  | MLang s lang => Some [TText s lang]
  | _ => None
  end.
Definition ocons (a b : option (list token)) : option (list token) :=
  match a, b with Some x, Some y => Some (x ++ y) | _, _ => None end.

Fixpoint lex (text : string) (m : mode) : option (list token) :=
  match text with
  | EmptyString => flush m
  | String c rest =>
      match m with
      | MIri s =>
          if Nat.eqb (code c) 62 then ocons (Some [TIri s]) (lex rest MStart)
          else if is_iri_char c then lex rest (MIri (push s c)) else None
      | MQuote q s =>
          if Nat.eqb (code c) q then
            if Nat.eqb q 39 then lex rest (MAt s) else ocons (Some [TString s]) (lex rest MStart)
          else if Nat.eqb (code c) 92 then lex rest (MEscape q s)
          else if is_text_char q c then lex rest (MQuote q (push s c)) else None
      | MEscape q s =>
          match escaped c with Some c' => lex rest (MQuote q (push s c')) | None => None end
      | MAt s => if Nat.eqb (code c) 64 then lex rest (MLang s "") else None
      | MStart | MWord _ | MVar _ | MLang _ _ =>
          if is_name_char c then
            lex rest (match m with
                      | MWord s => MWord (push s c)
                      | MVar s => MVar (push s c)
                      | MLang s lang => MLang s (push lang c)
                      | _ => MWord (push "" c)
                      end)
          else ocons (flush m)
            (if is_space c then lex rest MStart
             else if is_punct c then ocons (Some [TPunct c]) (lex rest MStart)
             else if Nat.eqb (code c) 60 then lex rest (MIri "")
             else if Nat.eqb (code c) 39 then lex rest (MQuote 39 "")
             else if Nat.eqb (code c) 34 then lex rest (MQuote 34 "")
             else if Nat.eqb (code c) 63 then lex rest (MVar "")
             else None)
      end
  end.

(** ** Queries *)

Inductive part : Type := PVar (x : string) | PTerm (t : term).
Record group : Type := mkGroup {
  g_triples : list (part * part * part);
  g_filters : list (string * string)
}.
(** the variables that are selected; [None]: all *)
Record select : Type := mkSelect { s_variables : option (list string); s_group : group }.

Section Engine.
  (** what a name stands for: prefixes *)
  Variable expand : string -> option term.

  Definition part_of (t : token) : option part :=
    match t with
    | TVar x => Some (PVar x)
    | TIri i => Some (PTerm (Iri i))
    | TText s lang => Some (PTerm (Text s lang))
    | TWord w => match expand w with Some t => Some (PTerm t) | None => None end
    | _ => None
    end.

  Definition dot : token := TPunct ".".
  Definition is_token (t : token) (c : ascii) : bool := match t with TPunct d => Ascii.eqb c d | _ => false end.

  (** FILTER ( LANG ( variable ) = text ) *)
  Definition lang_filter (l : list token) : option (string * string) :=
    match l with
    | [TWord f; a; TWord g; b; TVar x; c; d; TString s; e] =>
        if String.eqb f "FILTER" && String.eqb g "LANG" && is_token a "(" && is_token b "(" && is_token c ")"
           && is_token d "=" && is_token e ")" then Some (x, s) else None
    | _ => None
    end.
  Definition triple_pattern (l : list token) : option (part * part * part) :=
    match l with
    | [a; b; c] =>
        match part_of a, part_of b, part_of c with
        | Some x, Some y, Some z => Some (x, y, z)
        | _, _, _ => None
        end
    | _ => None
    end.
  (** the patterns up to the closing bracket, each with a dot at its end *)
  Fixpoint parse_group (l : list token) (acc : list token) : option (list (list token)) :=
    match l with
    | [] => None
    | t :: rest =>
        if is_token t "." then
          match parse_group rest [] with Some g => Some (acc :: g) | None => None end
        else if is_token t "}" then
          match acc, rest with [], [] => Some [] | _, _ => None end
        else parse_group rest (acc ++ [t])
    end.
  Fixpoint read_group (l : list (list token)) : option group :=
    match l with
    | [] => Some (mkGroup [] [])
    | p :: rest =>
        match read_group rest with
        | None => None
        | Some g =>
            match lang_filter p with
            | Some f => Some (mkGroup (g_triples g) (f :: g_filters g))
            | None =>
                match triple_pattern p with
                | Some t => Some (mkGroup (t :: g_triples g) (g_filters g))
                | None => None
                end
            end
        end
    end.
  (** WHERE { ... *)
  Definition parse_where (variables : option (list string)) (l : list token) : option select :=
    match l with
    | TWord w :: b :: rest =>
        if String.eqb w "WHERE" && is_token b "{" then
          match parse_group rest [] with
          | Some ps => match read_group ps with Some g => Some (mkSelect variables g) | None => None end
          | None => None
          end
        else None
    | _ => None
    end.
  Fixpoint parse_variables (l : list token) (acc : list string) : option select :=
    match l with
    | TVar x :: rest => parse_variables rest (acc ++ [x])
    | _ => match acc with [] => None | _ => parse_where (Some acc) l end
    end.
  Definition parse (l : list token) : option select :=
    match l with
    | TWord w :: rest =>
        if String.eqb w "SELECT" then
          match rest with
          | TPunct "*" :: rest' => parse_where None rest'
          | _ => parse_variables rest []
          end
        else None
    | _ => None
    end.

  (** ** Answers (SPARQL 1.1, 18) *)

  Definition solution : Type := list (string * term).
  Fixpoint value_of (x : string) (s : solution) : option term :=
    match s with
    | [] => None
    | (y, t) :: s' => if String.eqb x y then Some t else value_of x s'
    end.
  Definition match_part (p : part) (t : term) (s : solution) : option solution :=
    match p with
    | PTerm u => if term_eqb u t then Some s else None
    | PVar x =>
        match value_of x s with
        | Some u => if term_eqb u t then Some s else None
        | None => Some (s ++ [(x, t)])
        end
    end.
  Definition match_triple (p : part * part * part) (s : solution) (t : triple) : list solution :=
    let '(a, b, c) := p in
    match match_part a (t_subject t) s with
    | None => []
    | Some s1 =>
        match match_part b (t_predicate t) s1 with
        | None => []
        | Some s2 => match match_part c (t_object t) s2 with None => [] | Some s3 => [s3] end
        end
    end.
  Definition match_pattern (graph : list triple) (p : part * part * part) (l : list solution) : list solution :=
    flat_map (fun s => flat_map (match_triple p s) graph) l.
  (** a resource has no language: the filter is an error, and the solution is
      left out *)
  Definition passes (s : solution) (f : string * string) : bool :=
    match value_of (fst f) s with
    | Some (Text _ lang) => String.eqb lang (snd f)
    | _ => false
    end.
  Definition solutions (graph : list triple) (g : group) : list solution :=
    filter (fun s => forallb (passes s) (g_filters g))
      (fold_left (fun l p => match_pattern graph p l) (g_triples g) [[]]).
  Definition project (variables : option (list string)) (s : solution) : solution :=
    match variables with
    | None => s
    | Some xs => flat_map (fun x => match value_of x s with Some t => [(x, t)] | None => [] end) xs
    end.
  Definition answers (graph : list triple) (q : select) : list solution :=
    map (project (s_variables q)) (solutions graph (s_group q)).

  (** the query that a text is *)
  Definition query_of_text (text : string) : option select :=
    match lex text MStart with Some l => parse l | None => None end.
End Engine.

(** the ['value'] of a term in the JSON results *)
Definition lexical (t : term) : string := match t with Iri i => i | Text s _ => s end.
Definition json (s : solution) : list (string * value) := map (fun p => (fst p, VStr (lexical (snd p)))) s.
