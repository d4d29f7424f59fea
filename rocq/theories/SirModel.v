(** * A system one can teach, in the manner of SIR

    The part of /repo/tests/integration/sir that is about set inclusion: the
    sentences "a cat is a mammal", "every cat is a mammal", "any cat is an
    example of a mammal" and "is a cat a mammal?" (read_grammar.py), all rules
    of intents.pl and inferences.pl, the database (SIRDB.py), the module
    (SIRModule.py), the output buffer (SIROutputBuffer.py), the replies
    (write_grammar.py) and the loop of entering and reading (test.py).

    Not modelled: the other sentences of read_grammar.py; the relations have,
    finger, part_of_n, create_relation and position_description of SIRModule.py;
    the write rules with arguments, which come after those below. *)

From Coq Require Import ZArith String List Bool.
From Verif Require Import Py Effects Solver Atoms Grammar Earley Composer CoreModule InferenceModule InferenceRuleParser
  Sql SqliteDataSource SimpleDataSource Memory Generator Pipeline QuestionSystem FragmentModel TalkModel Regex RegexProofs2.
Import ListNotations.
Local Open Scope string_scope.
Local Open Scope list_scope.
Local Open Scope monad_scope.

(** what the modules work on: the database, the rules, the output buffer and
    the dialog context *)
Record sir : Type := mkSir { sir_db : conn; sir_rb : rulebase; sir_out : sds_store; sir_ctx : conn }.
Definition db_lens : lens sir conn := mkLens sir_db (fun c w => mkSir c (sir_rb w) (sir_out w) (sir_ctx w)).
Definition rb_lens : lens sir rulebase := mkLens sir_rb (fun r w => mkSir (sir_db w) r (sir_out w) (sir_ctx w)).
Definition out_lens : lens sir sds_store := mkLens sir_out (fun s w => mkSir (sir_db w) (sir_rb w) s (sir_ctx w)).
Definition ctx_lens : lens sir conn := mkLens sir_ctx (fun c w => mkSir (sir_db w) (sir_rb w) (sir_out w) c).

(** SIRDB.py 12-18 *)
Definition sir_tables : sqldb :=
  [ ("isa", mkTbl ["entity"; "type"] [] []);
    ("identical", mkTbl ["entity1"; "entity2"] [] []);
    ("part_of", mkTbl ["part"; "whole"] [] []);
    ("part_of_n", mkTbl ["part"; "whole"; "number"] [] []);
    ("own", mkTbl ["person"; "thing"] [] []);
    ("just_left_of", mkTbl ["thing1"; "thing2"] [] []);
    ("left_of", mkTbl ["thing1"; "thing2"] [] []) ].

(** SIRModule.py 30-32 *)
Definition sir_select (t : string) (columns : list string) (values : list value) : M sir (list (list value)) :=
  on_conn db_lens (sq_select t columns values).
(** SIRModule.py 35-36 *)
Definition sir_insert (t : string) (columns : list string) (values : list value) : M sir unit :=
  on_conn db_lens (sq_insert t columns values).
(** SIRModule.py 69-74 *)
Definition resolve_name : solver_if sir -> list value -> ctx -> M sir qres := fun _ values _ =>
  name <- item values 0 ;; rows [[VNone; name]].

(** SIRModule.py 18, 21-26.  [common_query] and [common_write] hand the
    predicate and the columns of the relation to the data source, as
    SimpleMemoryModule.py does. *)
Definition sir_module : modul sir := fun _ p =>
  relation_get p
    [ mkRel "resolve_name" [] resolve_name None;
      memory_relation sir_select sir_insert "part_of" ["part"; "whole"];
      memory_relation sir_select sir_insert "isa" ["entity"; "type"];
      memory_relation sir_select sir_insert "identical" ["entity1"; "entity2"];
      memory_relation sir_select sir_insert "own" ["person"; "thing"];
      memory_relation sir_select sir_insert "just_left_of" ["thing1"; "thing2"];
      memory_relation sir_select sir_insert "left_of" ["thing1"; "thing2"] ].

(** SIROutputBuffer.py 8-16, after BasicOutputBuffer.py *)
Definition sir_columns : list (string * list string) :=
  buffer_columns ++
  [ ("output_count", ["number"]);
    ("output_how_many", ["type1"; "type2"]);
    ("output_dont_know_part_of", ["type1"; "type2"]);
    ("output_location", ["object"]);
    ("context", ["type"]) ].
Definition sir_output_buffer : modul sir := fun _ p =>
  relation_get p (map (fun pc => memory_relation (buffer_select out_lens) (buffer_insert out_lens) (fst pc) (snd pc)) sir_columns).

(** test.py 70-75, behind the core module *)
Definition sir_mods : list (modul sir) :=
  [core_module; sir_module; inference_module rb_lens; sir_output_buffer; dialog_context ctx_lens].

(** ** the rules *)

(** intents.pl *)
Definition intents_text : string :=
"# teach
intent_teach(A) :- store(A), store(output_type('understand')).

# part of
intent_part_of(A, B) :- (
    # Is a nostril part of a professor?
    proper_part_of(A, B), store(output_type('yes'))
    # Is a nostril part of a living-creature?
;   proper_isa(BB, B), proper_part_of(A, BB), store(output_type('sometimes'))
    # Is a nose part of a nose?
;   equals(A, B), store(output_type('no_subpart'))
    # Is a living-creature part of a nose?
;   proper_isa(AA, A), proper_part_of(B, AA), store(output_type('reverse_sometimes'))
).

# is a
intent_isa(A, B) :- (
    # is a girl a person?
    full_isa(A, B), store(output_type('yes'))
    # is a person a girl?
;   proper_isa(B, A), store(output_type('sometimes'))
    # is a person a person?
;   equals(A, B), store(output_type('yes'))
    # otherwise
;   store(output_type('unknown'))
).

# count
# not(output_type(T)) means: no output has been produced yet
intent_count(Atoms) :- count(C, Atoms), not(output_type(T)), store(output_type('count'), output_count(C)).

# yes/no
intent_yn(Atoms) :- (
    scoped(Atoms), store(output_type('yes'))
;
    store(output_type('no'))
).

# own
# Every fireman owns a pair-of-red-suspenders. A firechief is a fireman. Does a firechief own a pair-of-red-suspenders?
# Alfred owns a log-log-decitrig. A log-log-decitrig is a slide-rule. Does Alfred own a slide-rule?
intent_own(A, B) :- proper_own(A, B), store(output_type('yes')).

intent_some_own(A, B) :- (
    # own in some cases, but not all
    proper_own(A, B), store(output_type('yes'))
    # Alfred is a tech-man
    # A tech-man is an engineering-student
    # Alfred owns a log-log-decitrig
    # Does an engineering-student own a log-log-decitrig?
;   proper_isa(AA, A), own(AA, B), store(output_type('yes'))
    # Does a pair-of-red-suspenders own a pair-of-red-suspenders?
;   equals(A, B), store(output_type('no_same'))
    # otherwise
;   store(output_type('unknown'))
).

# claim
# NB the order is important, because `store` changes the state
intent_claim(Atom) :- not(check_claim(Atom)), store(output_type('impossible')).
intent_claim(Atom) :- check_claim(Atom), store(Atom), store(output_type('understand')).

# where
intent_where(Variable, Body) :-
    find_one(Variable, Body, Object),
    store(output_type('location'), output_location(Object)).

# position
intent_position() :-
    store(output_type('position')).
".

(** inferences.pl *)
Definition inferences_text : string :=
"# isa
proper_isa(A, B) :- isa(A, B).
proper_isa(A, B) :- isa(A, C), proper_isa(C, B).

# isa including identity
full_isa(A, A).
full_isa(A, B) :- proper_isa(A, B).
# equality: John is Jack
full_isa(A, B) :- identical(A, B).
full_isa(A, B) :- identical(B, A).
full_isa(A, B) :- identical(A, C), proper_isa(C, B).
full_isa(A, B) :- identical(C, A), proper_isa(C, B).
full_isa(A, B) :- identical(B, C), proper_isa(A, C).
full_isa(A, B) :- identical(C, B), proper_isa(A, C).

#own
# find generalizations of A, find specializations of B
proper_own(A, B) :- full_isa(A, AA), full_isa(BB, B), own(AA, BB).

# part-of
# find specializations of A, find generalizations of B
proper_part_of(A, B) :- full_isa(AA, A), full_isa(B, BB), part_of(AA, BB).
# part-of is transitive
proper_part_of(A, B) :- full_isa(A, AA), part_of(AA, C), proper_part_of(C, B).

# part-of with number
part_of_number(A, B, N) :- (
    # direct, non inheriting
    part_of(A, B), part_of_n(A, B, N)
;   # direct, inheriting
    full_isa(AA, A), full_isa(B, BB), part_of(AA, BB), part_of_n(AA, BB, N)
;   # transitive, non inheriting
    part_of(C, B), part_of(A, C), part_of_n(C, B, N1), part_of_number(A, C, N2), multiply(N1, N2, N)
;   # transitive, inheriting
    full_isa(B, BB), part_of(C, BB), part_of(A, C), part_of_n(C, BB, N1), part_of_number(A, C, N2), multiply(N1, N2, N)
).

# position
# in the context of a question, left_of is transitive
left_of(A, B) :- context('question'), just_left_of(A, B).
left_of(A, B) :- context('question'), just_left_of(A, C), left_of(C, B).
left_of(A, B) :- context('question'), just_left_of(C, B), left_of(A, C).

# if A is part of B, it has the same position as B
# todo: can use `proper_part_of`
just_left_of(A, B) :- part_of(A, C), isa(D, C), just_left_of(D, B).
just_left_of(B, A) :- part_of(A, C), isa(D, C), just_left_of(B, D).
left_of(A, B) :- part_of(A, C), isa(D, C), left_of(D, B).
left_of(B, A) :- part_of(A, C), isa(D, C), left_of(B, D).


somewhere_left_of(A, B) :- left_of(A, B), not(just_left_of(A, B)).

check_claim(Atom) :- destructure(Atom, 'just_left_of', A, B), check_just_left_of(A, B).
check_claim(Atom) :- destructure(Atom, 'left_of', A, B), check_left_of(A, B).

# check if the position just left of A is not already occupied
# check if A not to the right of B
check_just_left_of(A, B) :- not(just_left_of(A, C)), not(left_of(B, A)).
# check if A not to the right of B
check_left_of(A, B) :- not(left_of(B, A)).
".

(** test.py 57-59: what [import_rules] makes of the two files *)
Definition imported : outcome unit * rulebase :=
  (import_rules (mkLens (fun w => w) (fun s _ => s)) 4000 intents_text ;;;
   import_rules (mkLens (fun w => w) (fun s _ => s)) 4000 inferences_text) [].
Definition sir_rules : rulebase := Eval vm_compute in snd imported.

(** ** reading *)

Definition isa_atom (x y : value) : value := VTuple [VStr "isa"; x; y].

(** read_grammar.py 8-9: s() -> statement() *)
Definition s_statement := rule_of (phrase "s" []) [phrase "statement" []]
  (fun args => match args with [statement] => Ok statement | _ => Exn TypeErr end).
(** 21-22: statement() -> 'every' common_noun_name() 'is' a() common_noun_name() *)
Definition st_every := rule_of (phrase "statement" [])
  [quoted "every"; space; phrase "common_noun_name" []; space; quoted "is"; space; phrase "a" []; space; phrase "common_noun_name" []]
  (fun args => match args with
               | [x; _; y] => Ok (intent "intent_claim" [VList [isa_atom x y]])
               | _ => Exn TypeErr end).
(** 26-27: statement() -> 'any' common_noun_name() 'is' 'an' 'example' 'of' a() common_noun_name() *)
Definition st_any := rule_of (phrase "statement" [])
  [quoted "any"; space; phrase "common_noun_name" []; space; quoted "is"; space; quoted "an"; space; quoted "example"; space;
   quoted "of"; space; phrase "a" []; space; phrase "common_noun_name" []]
  (fun args => match args with
               | [x; _; y] => Ok (intent "intent_claim" [VList [isa_atom x y]])
               | _ => Exn TypeErr end).
(** 31-32: statement() -> a() common_noun_name() 'is' a() common_noun_name() *)
Definition st_a := rule_of (phrase "statement" [])
  [phrase "a" []; space; phrase "common_noun_name" []; space; quoted "is"; space; phrase "a" []; space; phrase "common_noun_name" []]
  (fun args => match args with
               | [_; x; _; y] => Ok (intent "intent_teach" [VList [isa_atom x y]])
               | _ => Exn TypeErr end).
(** SimpleGrammarRulesParser.py 148: [~] *)
Definition optional_space : constituent := mkCons " " [] PWord true true.
(** 107-108: s() -> 'is' a() common_noun_name() a() common_noun_name()~'?' *)
Definition s_is := rule_of (phrase "s" [])
  [quoted "is"; space; phrase "a" []; space; phrase "common_noun_name" []; space; phrase "a" []; space;
   phrase "common_noun_name" []; optional_space; quoted "?"]
  (fun args => match args with
               | [_; x; _; y] => Ok (intent "intent_isa" [x; y])
               | _ => Exn TypeErr end).
(** 165-166: a() -> 'a', a() -> 'an' *)
Definition a_rule (w : string) := rule_of (phrase "a" []) [quoted w] (no_argument (VList [])).
(** 189: common_noun_name() -> name() *)
Definition cnn_name := rule_of (phrase "common_noun_name" []) [phrase "name" []]
  (fun args => match args with [name] => Ok name | _ => Exn TypeErr end).
(** 190: common_noun_name() -> common_noun_name()+'s', with boost 1 *)
Definition cnn_plural : crule := new_rule (phrase "common_noun_name" []) [phrase "common_noun_name" []; quoted "s"]
  (mkMeaning (Some (fun args => match args with [name] => Ok name | _ => Exn TypeErr end)) None (DAtoms [])) 1.
(** 192 *)
Definition name_pattern : string := "\w[\w\d]+(-[\w\d]+)*".
Definition name_rule := rule_of (phrase "name" []) [mkCons name_pattern [] PRegExp false false]
  (fun args => match args with [token] => Ok token | _ => Exn TypeErr end).

Definition sir_grammar : list crule :=
  [s_statement; st_every; st_any; st_a; s_is; a_rule "a"; a_rule "an"; cnn_name; cnn_plural; name_rule].

(** ** writing *)

Definition says {W} (text type : string) : grule (@wmean W) := write_rule [quoted text] [out "output_type" [VStr type]].
(** en_us_write.py 4-18 and write_grammar.py 9-44 *)
Definition sir_replies : list (grule (@wmean sir)) :=
  [ says "Sorry, I don't understand" "not_understood";
    says "No sentence given" "no_sentence";
    write_rule [quoted "Could not understand:"; space; phrase "text" ["E1"]]
      [out "output_type" [VStr "unknown_word"]; out "output_unknown_word" [VVar "E1"]];
    says "I understand" "understand";
    says "Insufficient information" "unknown";
    says "No, they are the same" "no_same";
    says "No, part means proper subpart" "no_subpart";
    says "No, but the reverse is sometimes true" "reverse_sometimes";
    says "Sometimes" "sometimes";
    says "Yes" "yes";
    says "No" "no";
    says "The above statement is impossible" "impossible" ].

(** ** the loop *)
Section Loop.
  Variables kp kc ke : bkind.
  (** SemanticComposer's [query_optimizer] *)
  Variable opt : option (list value -> list string -> outcome (list (string * value))).
  (** limits of the parser and of the solver and the generator *)
  Variables fuel limit : nat.

  (** test.py 85-99, DialogTester.py 26-33: [system.enter(Request(text))] and then
      [system.read_output()] *)
  Definition sir_exchange (text : string) (w : world sir) : outcome value * world sir :=
    match ask py_match kp kc ke fuel opt (solver_at sir_mods limit) (store_output sir_mods limit) text w with
    | (Ok _, w1) => on_model (generate_output (grammar_rules sir_replies) (solve sir_mods limit) out_lens limit) w1
    | (Exn e, w1) => (Exn e, w1)
    | (OutOfFuel, w1) => (OutOfFuel, w1)
    end.

  Fixpoint sir_dialog (texts : list string) (w : world sir) : list (outcome value) * world sir :=
    match texts with
    | [] => ([], w)
    | t :: rest =>
        let '(r, w1) := sir_exchange t w in
        let '(rs, w2) := sir_dialog rest w1 in
        (r :: rs, w2)
    end.
End Loop.

(** test.py 52-93 *)
Definition sir_start : sir :=
  mkSir (mkConn sir_tables sir_tables) sir_rules [] (mkConn dialog_tables dialog_tables).
