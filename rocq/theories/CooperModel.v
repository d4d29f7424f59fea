(** * A system that is taught facts and rules and answers in three truth values

    /repo/tests/integration/cooper: the database (CooperDB.py), the module
    (CooperModule.py), the rules (inferences.pl), the grammar to teach with
    (read_grammar1.py), the grammar to ask with (read_grammar2.py), the replies
    (write_grammar.py) and the two systems on one model (test.py). *)

From Coq Require Import ZArith String List Bool.
From Verif Require Import Py Effects Solver Atoms Grammar GrammarParser Earley Composer CoreModule InferenceModule InferenceRuleParser
  Sql SqliteDataSource SimpleDataSource Memory Generator Optimizer Pipeline QuestionSystem FragmentModel TalkModel SirModel Regex RegexProofs2.
Import ListNotations.
Local Open Scope string_scope.
Local Open Scope list_scope.
Local Open Scope monad_scope.

(** what the modules work on: the database, the rules and the output buffer *)
Record cooper : Type := mkCooper { co_db : conn; co_rb : rulebase; co_out : sds_store }.
Definition co_db_lens : lens cooper conn := mkLens co_db (fun c w => mkCooper c (co_rb w) (co_out w)).
Definition co_rb_lens : lens cooper rulebase := mkLens co_rb (fun r w => mkCooper (co_db w) r (co_out w)).
Definition co_out_lens : lens cooper sds_store := mkLens co_out (fun s w => mkCooper (co_db w) (co_rb w) s).

(** ** the module *)

(** CooperModule.py 19-33, CooperDB.py 17-31 *)
Definition qualities : list string :=
  ["metal"; "element"; "compound"; "nonmetal"; "white"; "dark_gray"; "brittle"; "oxide"; "sulfide"; "chloride";
   "fuel"; "burns"; "burns_rapidly"; "combustable"; "gasoline"].

(** CooperDB.py 14-31; [TEXT PRIMARY KEY] *)
Definition cooper_tables : sqldb :=
  ("entity", mkTbl ["id"; "name"] [] []) :: map (fun q => (q, mkTbl ["entity"; "truth"] [["entity"]] [])) qualities.

Definition co_select (t : string) (columns : list string) (values : list value) : M cooper (list (list value)) :=
  on_conn co_db_lens (sq_select t columns values).
Definition co_insert (t : string) (columns : list string) (values : list value) : M cooper unit :=
  on_conn co_db_lens (sq_insert t columns values).

(** CooperModule.py 36-51.  [lower]: of another value than a text there is an
    AttributeError, and so of the name of an argument that is not a variable *)
Definition resolve_id : solver_if cooper -> list value -> ctx -> M cooper qres := fun _ values c =>
  name <- item values 0 ;;
  match name with
  | VStr n =>
      let name := VStr (lower n) in
      id <- item values 1 ;;
      found <- co_select "entity" ["name"; "id"] [name; VNone] ;;
      match found with
      | _ :: _ => rows found
      | [] =>
          id <- match id with
                | VNone =>
                    a <- item (c_args c) 1 ;;
                    match a with VVar x => ret (VStr x) | _ => throw AttributeErr end
                | _ => ret id
                end ;;
          co_insert "entity" ["name"; "id"] [name; id] ;;;
          rows [[name; id]]
      end
  | _ => throw AttributeErr
  end.

(** CooperModule.py 55-70 *)
Definition not_3v : solver_if cooper -> list value -> ctx -> M cooper qres := fun _ values _ =>
  v <- item values 0 ;;
  if py_eq v (VStr "true") then rows [[VNone; VStr "false"]]
  else if py_eq v (VStr "false") then rows [[VNone; VStr "true"]]
  else rows [[VNone; VStr "unknown"]].

(** CooperModule.py 74-99.  For other values Python returns [None], which the
    solver cannot iterate over *)
Definition and_3v : solver_if cooper -> list value -> ctx -> M cooper qres := fun _ values _ =>
  match values with
  | [in1; in2; _] =>
      let is a b := (py_eq in1 (VStr a) && py_eq in2 (VStr b))%bool in
      let result v := rows [[VNone; VNone; VStr v]] in
      if is "true" "false" then result "false"
      else if is "true" "unknown" then result "unknown"
      else if is "true" "true" then result "true"
      else if is "false" "false" then result "false"
      else if is "false" "unknown" then result "unknown"
      else if is "false" "true" then result "false"
      else if is "unknown" "false" then result "unknown"
      else if is "unknown" "unknown" then result "unknown"
      else if is "unknown" "true" then result "unknown"
      else throw TypeErr
  | _ => throw ValueErr
  end.

(** CooperModule.py 102-109 *)
Definition quality_query : solver_if cooper -> list value -> ctx -> M cooper qres := fun _ values c =>
  found <- co_select (c_pred c) (c_cols c) values ;;
  match found with
  | _ :: _ => rows found
  | [] => rows [removelast values ++ [VStr "unknown"]]
  end.
(** CooperModule.py 112-113 *)
Definition quality_write : solver_if cooper -> list value -> ctx -> M cooper unit := fun _ values c =>
  co_insert (c_pred c) (c_cols c) values.
Definition quality_relation (q : string) : relation cooper := mkRel q ["entity"; "truth"] quality_query (Some quality_write).

(** CooperModule.py 12-33 *)
Definition cooper_module : modul cooper := fun _ p =>
  relation_get p
    (mkRel "resolve_name" [] resolve_id None :: mkRel "not_3v" [] not_3v None :: mkRel "and_3v" [] and_3v None ::
     map quality_relation qualities).

(** test.py 76-80, behind the core module *)
Definition cooper_mods : list (modul cooper) :=
  [core_module; cooper_module; inference_module co_rb_lens; output_buffer co_out_lens].

(** inferences.pl *)
Definition cooper_text : string :=
"# sentence-level predicates

# teach
sentence_tell(Atoms) :- store(Atoms), store(output_type('ok')).
sentence_learn(Head, Body) :- learn_rule(Head, Body), store(output_type('ok')).

# check
sentence_check(Truth) :- store(output_type(Truth)).
".
(** test.py 67-68 *)
Definition cooper_rules : rulebase := Eval vm_compute in snd (import_rules (mkLens (fun w => w) (fun s _ => s)) 4000 cooper_text []).

(** ** reading *)

(** a rule of a grammar: [syn], [sem] and [dialog]; a text that is not a rule is
    an error *)
Definition read_rule (syn : string) (sem : list value -> outcome value) (atoms : list value) : outcome crule :=
  obind (parse_syntax false syn) (fun s => Ok (new_rule (fst s) (snd s) (Composer.mkMeaning (Some sem) None (DAtoms atoms)) 0)).
Fixpoint read_all (l : list (outcome crule)) : outcome (list crule) :=
  match l with
  | [] => Ok []
  | r :: rest => obind r (fun r => obind (read_all rest) (fun rs => Ok (r :: rs)))
  end.

Definition T (n : string) : value := VVar n.
Definition T1 := VVar "T1". Definition T2 := VVar "T2". Definition T3 := VVar "T3".
Definition T4 := VVar "T4". Definition T5 := VVar "T5". Definition T6 := VVar "T6".
Definition at_ (p : string) (args : list value) : value := VTuple (VStr p :: args).
Definition let_ (x : value) (v : string) : value := at_ "let" [x; VStr v].
(** [a + b] for lists and for texts *)
Definition plus (a b : value) : outcome value :=
  match a, b with
  | VList x, VList y => Ok (VList (x ++ y))
  | VStr x, VStr y => Ok (VStr (append x y))
  | _, _ => Exn TypeErr
  end.
Fixpoint sum_of (l : list value) : outcome value :=
  match l with
  | [] => Exn TypeErr
  | [v] => Ok v
  | v :: rest => obind (sum_of rest) (plus v)
  end.
(** [v[0]] *)
Definition first (v : value) : outcome value :=
  match v with
  | VList (x :: _) => Ok x
  | VList [] => Exn IndexErr
  | _ => Exn TypeErr
  end.
Definition fn0 (v : value) : list value -> outcome value := no_argument v.
Definition fn1 (f : value -> outcome value) (args : list value) : outcome value :=
  match args with [a] => f a | _ => Exn TypeErr end.
Definition fn2 (f : value -> value -> outcome value) (args : list value) : outcome value :=
  match args with [a; b] => f a b | _ => Exn TypeErr end.
Definition fn3 (f : value -> value -> value -> outcome value) (args : list value) : outcome value :=
  match args with [a; b; c] => f a b c | _ => Exn TypeErr end.
Definition fn4 (f : value -> value -> value -> value -> outcome value) (args : list value) : outcome value :=
  match args with [a; b; c; d] => f a b c d | _ => Exn TypeErr end.
Definition fn5 (f : value -> value -> value -> value -> value -> outcome value) (args : list value) : outcome value :=
  match args with [a; b; c; d; e] => f a b c d e | _ => Exn TypeErr end.
Definition fn6 (f : value -> value -> value -> value -> value -> value -> outcome value) (args : list value) : outcome value :=
  match args with [a; b; c; d; e; g] => f a b c d e g | _ => Exn TypeErr end.
(** [('let', T1, v1), ('let', T2, v2), ('sentence_learn', head[0], body)] *)
Definition learn (v1 v2 : string) (head body : value) : outcome value :=
  obind (first head) (fun h => Ok (VList [let_ T1 v1; let_ T2 v2; at_ "sentence_learn" [h; body]])).

(** read_grammar1.py 11-123 *)
Definition texts1 : list (outcome crule) := [
  read_rule "s() -> proper_noun(E1) is() a() np(E1, T1)"
    (fn4 (fun noun _ _ np => sum_of [VList [let_ T1 "true"]; noun; VList [at_ "sentence_tell" [np]]])) [];
  read_rule "s() -> proper_noun(E1) 'is' proper_noun(E1)"
    (fn2 (fun a b => obind (plus a b) (fun l => Ok (VList [at_ "sentence_tell" [l]])))) [];
  read_rule "s() -> 'no' noun(E1, T1) is() a() np(E1, T2)" (fn4 (fun noun _ _ np => learn "true" "false" np noun)) [];
  read_rule "s() -> a() noun(E1, T1) is() 'not' a() np(E1, T2)" (fn5 (fun _ noun _ _ np => learn "true" "false" np noun)) [];
  read_rule "s() -> noun(E1, T1) verb(E1)" (fn2 (fun noun verb => plus noun (VList [at_ "store" [verb]]))) [];
  read_rule "s() -> np(E1, T1) verb(E1)" (fn2 (fun np verb => learn "true" "true" verb np)) [];
  read_rule "s() -> np(E1, T1) are() 'not' adj(E1, T2)" (fn3 (fun np _ adj => learn "true" "false" adj np)) [];
  read_rule "s() -> noun(E1, T1) 'is' adj(E1, T1)" (fn2 (fun noun adj => learn "true" "true" adj noun)) [];
  read_rule "s() -> noun(E1, T1) are() 'not' np(E1, T2)"
    (fn3 (fun noun _ np => obind (learn "false" "true" noun np) (fun a => obind (learn "true" "false" np noun) (fun b =>
      Ok (VList [at_ "scoped" [a]; at_ "scoped" [b]]))))) [];
  read_rule "s() -> noun(E1, T1) are() np(E1, T2)" (fn3 (fun noun _ np => learn "true" "true" np noun)) [];
  read_rule "s() -> 'any' 'thing' 'that' verb(E1) verb(E1)" (fn2 (fun verb1 verb2 => learn "true" "true" verb2 verb1)) [];
  read_rule "np(E1, T1) -> noun(E1, T1)" (fn1 Ok) [];
  read_rule "np(E1, T1) -> adj(E1, T1) np(E1, T1)" (fn2 plus) [];
  read_rule "np(E1, T1) -> np(E1, T1) 'that' 'is' np(E1, T1)" (fn2 plus) [];
  read_rule "verb(E1) -> 'burn'" (fn0 (VList [at_ "burns" [E1; VStr "true"]])) [];
  read_rule "verb(E1) -> 'burns'" (fn0 (VList [at_ "burns" [E1; VStr "true"]])) [];
  read_rule "verb(E1) -> 'burns' 'rapidly'" (fn0 (VList [at_ "burns_rapidly" [E1; VStr "true"]])) [];
  read_rule "verb(E1) -> 'rapidly' 'burns'" (fn0 (VList [at_ "burns_rapidly" [E1; VStr "true"]])) [];
  read_rule "is() -> 'is'" (fn0 (VList [])) [];
  read_rule "are() -> 'are'" (fn0 (VList [])) [];
  read_rule "a() -> 'a'" (fn0 (VList [])) [];
  read_rule "a() -> 'an'" (fn0 (VList [])) [];
  read_rule "adj(E1, T1) -> 'white'" (fn0 (VList [at_ "white" [E1; T1]])) [];
  read_rule "adj(E1, T1) -> 'dark-gray'" (fn0 (VList [at_ "dark_gray" [E1; T1]])) [];
  read_rule "adj(E1, T1) -> 'metallic'" (fn0 (VList [at_ "metal" [E1; T1]])) [];
  read_rule "adj(E1, T1) -> 'combustable'" (fn0 (VList [at_ "combustable" [E1; T1]])) [];
  read_rule "noun(E1, T1) -> common_noun(E1, T1)" (fn1 Ok) [];
  read_rule "noun(E1, T1) -> proper_noun(E1)" (fn1 Ok) [];
  read_rule "common_noun(E1, T1) -> 'nonmetal'" (fn0 (VList [at_ "nonmetal" [E1; T1]])) [];
  read_rule "common_noun(E1, T1) -> 'fuel'" (fn0 (VList [at_ "fuel" [E1; T1]])) [];
  read_rule "common_noun(E1, T1) -> 'metal'" (fn0 (VList [at_ "metal" [E1; T1]])) [];
  read_rule "common_noun(E1, T1) -> 'oxide'" (fn0 (VList [at_ "oxide" [E1; T1]])) [];
  read_rule "common_noun(E1, T1) -> 'sulfide'" (fn0 (VList [at_ "sulfide" [E1; T1]])) [];
  read_rule "common_noun(E1, T1) -> 'chloride'" (fn0 (VList [at_ "chloride" [E1; T1]])) [];
  read_rule "common_noun(E1, T1) -> 'brittle'" (fn0 (VList [at_ "brittle" [E1; T1]])) [];
  read_rule "common_noun(E1, T1) -> 'element'" (fn0 (VList [at_ "element" [E1; T1]])) [];
  read_rule "common_noun(E1, T1) -> 'elements'" (fn0 (VList [at_ "element" [E1; T1]])) [];
  read_rule "common_noun(E1, T1) -> 'compound'" (fn0 (VList [at_ "compound" [E1; T1]])) [];
  read_rule "common_noun(E1, T1) -> 'compounds'" (fn0 (VList [at_ "compound" [E1; T1]])) [];
  read_rule "common_noun(E1, T1) -> 'things'" (fn0 (VList [])) [];
  read_rule "proper_noun(E1) -> /\w+/" (fn1 (fun token => Ok (VList [at_ "resolve_name" [token; E1]]))) [];
  read_rule "proper_noun(E1) -> /\w+/ /\w+/"
    (fn2 (fun a b => obind (sum_of [a; VStr " "; b]) (fun n => Ok (VList [at_ "resolve_name" [n; E1]])))) [];
  read_rule "proper_noun(E1) -> /\w+/ main_noun(E1)"
    (fn2 (fun a b => obind (sum_of [a; VStr " "; b]) (fun n => Ok (VList [at_ "resolve_name" [n; E1]])))) [];
  read_rule "main_noun(E1) -> 'oxide'" (fn0 (VStr "oxide")) [at_ "oxide" [VReif "E1"; VStr "true"]];
  read_rule "main_noun(E1) -> 'chloride'" (fn0 (VStr "chloride")) [at_ "chloride" [VReif "E1"; VStr "true"]];
  read_rule "main_noun(E1) -> 'sulfide'" (fn0 (VStr "sulfide")) [at_ "sulfide" [VReif "E1"; VStr "true"]]
].

(** read_grammar2.py 17-99 *)
Definition texts2 : list (outcome crule) := [
  read_rule "s(T1) -> vp(E1, T1)" (fn1 (fun vp => plus vp (VList [at_ "sentence_check" [T1]]))) [];
  read_rule "vp(E1, T3) -> np(E1, T2) is() a() np(E1, T1)"
    (fn4 (fun np1 _ _ np2 => sum_of [np1; np2; VList [at_ "and_3v" [T1; T2; T3]]])) [];
  read_rule "vp(E1, T3) -> np(E1, T2) is() 'not' a() np(E1, T1)"
    (fn4 (fun np1 _ _ np2 => sum_of [np1; np2; VList [at_ "not_3v" [T1; T3]]])) [];
  read_rule "vp(E1, T3) -> vp(E1, T1) rel_clause(E1, T2)"
    (fn2 (fun vp rel => sum_of [vp; rel; VList [at_ "and_3v" [T1; T2; T3]]])) [];
  read_rule "vp(E1, T3) -> np(E1, T1) is() np(E1, T2)"
    (fn3 (fun np1 _ np2 => sum_of [np1; np2; VList [at_ "and_3v" [T1; T2; T3]]])) [];
  read_rule "vp(E1, T3) -> 'some' np(E1, T1) are() np(E1, T2)"
    (fn3 (fun np1 _ np2 => sum_of [np1; np2; VList [at_ "and_3v" [T1; T2; T3]]])) [];
  read_rule "vp(E1, T3) -> 'no' np(E1, T1) is() np(E1, T2)"
    (fn3 (fun np1 _ np2 => sum_of [VList [let_ T1 "true"]; VList [let_ T2 "true"]; np1; np2; VList [at_ "not_3v" [T2; T3]]])) [];
  read_rule "vp(E1, T3) -> np(E1, T1) are() 'not' np(E1, T2)"
    (fn3 (fun np1 _ np2 => sum_of [VList [let_ T1 "true"]; VList [let_ T2 "true"]; np1; np2; VList [at_ "not_3v" [T2; T3]]])) [];
  read_rule "vp(E1, T3) -> 'every' np(E1, T1) is() a() np(E1, T2)"
    (fn4 (fun np1 _ _ np2 => sum_of [VList [let_ T1 "true"]; VList [let_ T2 "true"]; np1; np2; VList [at_ "and_3v" [T1; T2; T3]]])) [];
  read_rule "vp(E1, T6) -> np(E1, T1) is() 'not' a() np(E1, T2) 'that' is() 'not' np(E1, T3)"
    (fn6 (fun np1 _ _ np2 _ np3 => sum_of [np1; np2; np3; VList [at_ "not_3v" [T3; T4]; at_ "and_3v" [T2; T4; T5]; at_ "not_3v" [T5; T6]]])) [];
  read_rule "vp(E1, T4) -> np(E1, T1) is() 'not' np(E1, T2)"
    (fn3 (fun np1 _ np2 => sum_of [np1; np2; VList [at_ "and_3v" [T1; T2; T3]; at_ "not_3v" [T3; T4]]])) [];
  read_rule "vp(E1, T4) -> 'no' adj(E1, T1) 'thing' is() a() np(E1, T2)"
    (fn4 (fun adj _ _ np => sum_of [adj; np; VList [at_ "and_3v" [T1; T2; T3]; at_ "not_3v" [T3; T4]]])) [];
  read_rule "vp(E1, T5) -> np(E1, T1) is() a() np(E1, T2) 'that' verb(E1, T3)"
    (fn5 (fun np1 _ _ np2 verb => sum_of [np1; np2; verb; VList [at_ "and" [T1; T2; T4]; at_ "and_3v" [T3; T4; T5]]])) [];
  read_rule "a() -> 'a'" (fn0 (VList [])) [];
  read_rule "a() -> 'an'" (fn0 (VList [])) [];
  read_rule "rel_clause(E1, T1) -> 'that' verb(E1, T1)" (fn1 Ok) [];
  read_rule "verb(E1, T1) -> 'burns'" (fn0 (VList [at_ "burns" [E1; T1]])) [];
  read_rule "verb(E1, T1) -> 'burns' 'rapidly'" (fn0 (VList [at_ "burns_rapidly" [E1; T1]])) [];
  read_rule "is() -> 'is'" (fn0 (VList [])) [];
  read_rule "are() -> 'are'" (fn0 (VList [])) [];
  read_rule "np(E1, T1) -> noun(E1, T1)" (fn1 Ok) [];
  read_rule "np(E1, T1) -> adj(E1, T1) np(E1, T1)" (fn2 plus) [];
  read_rule "np(E1, T1) -> proper_noun(E1)" (fn1 (fun noun => plus noun (VList [let_ T1 "true"]))) [];
  read_rule "np(E1, T2) -> 'anything' 'that' is() 'not' a() np(E1, T1)"
    (fn3 (fun _ _ np => plus np (VList [at_ "not_3v" [T1; T2]]))) [];
  read_rule "adj(E1, T1) -> 'brittle'" (fn0 (VList [at_ "brittle" [E1; T1]])) [];
  read_rule "adj(E1, T1) -> 'dark-gray'" (fn0 (VList [at_ "dark_gray" [E1; T1]])) [];
  read_rule "noun(E1, T1) -> 'metal'" (fn0 (VList [at_ "metal" [E1; T1]])) [];
  read_rule "noun(E1, T1) -> 'nonmetal'" (fn0 (VList [at_ "nonmetal" [E1; T1]])) [];
  read_rule "noun(E1, T1) -> 'compound'" (fn0 (VList [at_ "compound" [E1; T1]])) [];
  read_rule "noun(E1, T1) -> 'element'" (fn0 (VList [at_ "element" [E1; T1]])) [];
  read_rule "noun(E1, T1) -> 'white'" (fn0 (VList [at_ "white" [E1; T1]])) [];
  read_rule "noun(E1, T1) -> 'dark-gray'" (fn0 (VList [at_ "dark_gray" [E1; T1]])) [];
  read_rule "noun(E1, T1) -> 'oxide'" (fn0 (VList [at_ "oxide" [E1; T1]])) [];
  read_rule "noun(E1, T1) -> 'oxides'" (fn0 (VList [at_ "oxide" [E1; T1]])) [];
  read_rule "noun(E1, T1) -> 'sulfide'" (fn0 (VList [at_ "sulfide" [E1; T1]])) [];
  read_rule "noun(E1, T1) -> 'sulfides'" (fn0 (VList [at_ "sulfide" [E1; T1]])) [];
  read_rule "noun(E1, T1) -> 'brittle'" (fn0 (VList [at_ "brittle" [E1; T1]])) [];
  read_rule "noun(E1, T1) -> 'fuel'" (fn0 (VList [at_ "fuel" [E1; T1]])) [];
  read_rule "proper_noun(E1) -> /\w+/" (fn1 (fun token => Ok (VList [at_ "resolve_name" [token; E1]]))) [];
  read_rule "proper_noun(E1) -> /\w+/ /\w+/"
    (fn2 (fun a b => obind (sum_of [a; VStr " "; b]) (fun n => Ok (VList [at_ "resolve_name" [n; E1]])))) []
].
Definition grammar1 : list crule := match read_all texts1 with Ok l => l | _ => [] end.
Definition grammar2 : list crule := match read_all texts2 with Ok l => l | _ => [] end.

(** ** writing *)

(** en_us_write.py 4-18 and write_grammar.py 7-23 *)
Definition cooper_replies : list (grule (@wmean cooper)) :=
  [ says "Sorry, I don't understand" "not_understood";
    says "No sentence given" "no_sentence";
    write_rule [quoted "Could not understand:"; space; phrase "text" ["E1"]]
      [out "output_type" [VStr "unknown_word"]; out "output_unknown_word" [VVar "E1"]];
    says "OK" "ok";
    says "True" "true";
    says "False" "false";
    says "Unable to answer" "unknown" ].

(** ** the systems *)
(** test.py 61-83 *)
Definition cooper_start : cooper := mkCooper (mkConn cooper_tables cooper_tables) cooper_rules [].
(** No relation of this model has sizes (Relation.py 15-16).  The rules that are
    learned are about qualities and names, so that the predicates that have
    relations are those that have them at the start. *)
Definition plain_sizes (p : string) : list sizes :=
  map (fun _ => mkSizes None []) (find_relations cooper_mods cooper_start p).
Section Systems.
  (** test.py 84-133: FindOne, TryFirst, TryFirst; the query optimizer *)
  Variables fuel limit : nat.
  Definition exchange (text : string) (w : world cooper) : outcome value * world cooper :=
    match ask py_match FindOne TryFirst TryFirst fuel (Some (optimize plain_sizes)) (solver_at cooper_mods limit) (store_output cooper_mods limit) text w with
    | (Ok _, w1) => on_model (generate_output (grammar_rules cooper_replies) (solve cooper_mods limit) co_out_lens limit) w1
    | (Exn e, w1) => (Exn e, w1)
    | (OutOfFuel, w1) => (OutOfFuel, w1)
    end.
  Fixpoint dialog (texts : list string) (w : world cooper) : list (outcome value) * world cooper :=
    match texts with
    | [] => ([], w)
    | t :: rest => let '(r, w1) := exchange t w in let '(rs, w2) := dialog rest w1 in (r :: rs, w2)
    end.
End Systems.
