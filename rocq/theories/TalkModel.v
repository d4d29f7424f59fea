(** * A system one can talk with, in the manner of chat80

    Sentences with an intent (/repo/tests/integration/chat80/read_grammar.py),
    the rules for the intents (chat80/intents.pl), the write grammar
    (chat80/write_grammar.py after /repo/richard/grammar/en_us_write.py) and
    the loop of asking and reading (chat80/test.py, System.py 31-54).

    Simplified: the phrases are those of FragmentModel.v. *)

From Coq Require Import ZArith String List Bool.
From Verif Require Import Py Effects Solver Atoms Grammar Earley Composer CoreModule InferenceModule TableModule
  SimpleDataSource Memory Generator Pipeline QuestionSystem FragmentSpec FragmentModel.
Import ListNotations.
Local Open Scope string_scope.
Local Open Scope list_scope.
Local Open Scope monad_scope.

(** ** reading *)

Definition e1 : value := VReif "E1".
Definition intent (name : string) (args : list value) : value := VList [VTuple (VStr name :: args)].

(** s(E1) -> 'which' nbar(E1) vp(E1) + '?'           (cf. read_grammar.py 73-76, 85-88) *)
Definition s_which_q := rule_of (phrase "s" ["E1"])
  [quoted "which"; space; phrase "nbar" ["E1"]; space; phrase "vp" ["E1"]; quoted "?"]
  (fun args => obind (concatenate args) (fun q => Ok (intent "intent_list" [e1; q]))).
(** s(E1) -> 'what' nbar(E1) 'are' 'there' + '?'     (24-27) *)
Definition s_what := rule_of (phrase "s" ["E1"])
  [quoted "what"; space; phrase "nbar" ["E1"]; space; quoted "are"; space; quoted "there"; quoted "?"]
  (fun args => match args with
               | [nbar] => Ok (intent "intent_list" [e1; nbar])
               | _ => Exn TypeErr end).
(** s(E1) -> 'does' np(E1) vp(E1) + '?'              (12-15) *)
Definition s_does := rule_of (phrase "s" ["E1"])
  [quoted "does"; space; phrase "np" ["E1"]; space; phrase "vp" ["E1"]; quoted "?"]
  (fun args => match args with
               | [np; vp] => obind (apply np [vp]) (fun q => Ok (intent "intent_yn" [q]))
               | _ => Exn TypeErr end).
(** s(E1) -> 'is' 'there' np(E1) + '?'               (16-19) *)
Definition s_is_there := rule_of (phrase "s" ["E1"])
  [quoted "is"; space; quoted "there"; space; phrase "np" ["E1"]; quoted "?"]
  (fun args => match args with
               | [np] => obind (apply np [VList []]) (fun q => Ok (intent "intent_yn" [q]))
               | _ => Exn TypeErr end).
(** s(E1) -> 'how' 'many' nbar(E2) vp(E2) + '?'      (89-92) *)
Definition s_how_many := rule_of (phrase "s" ["E1"])
  [quoted "how"; space; quoted "many"; space; phrase "nbar" ["E2"]; space; phrase "vp" ["E2"]; quoted "?"]
  (fun args => obind (concatenate args) (fun q => Ok (intent "intent_value" [e1; VList [VTuple [VStr "count"; E1; q]]]))).

Definition talk (lx : lexicon) : list crule := [s_which_q; s_what; s_does; s_is_there; s_how_many] ++ tl (fragment lx).

(** ** intents: the rules of intents.pl *)

Definition out (p : string) (args : list value) : value := VTuple (VStr p :: args).
Definition store_of (atoms : list value) : value := VTuple [VStr "store"; VList atoms].

(** intents.pl 4-6 *)
Definition intent_list_rule : rule := mkRule [VStr "intent_list"; VVar "E1"; VVar "Sem"]
  (VList [VTuple [VStr "find_all"; VVar "E1"; VVar "Sem"; VVar "Elements"];
          store_of [out "output_type" [VStr "list"]; out "output_list" [VVar "Elements"]]]).
(** intents.pl 8-10 *)
Definition intent_table_rule : rule := mkRule [VStr "intent_table"; VVar "Variables"; VVar "Units"; VVar "Body"]
  (VList [VTuple [VStr "find_all"; VVar "Variables"; VVar "Body"; VVar "Results"];
          store_of [out "output_type" [VStr "table"]; out "output_table" [VVar "Results"; VVar "Units"]]]).
(** intents.pl 12-15 *)
Definition intent_yn_rule : rule := mkRule [VStr "intent_yn"; VVar "Body"]
  (VList [VTuple [VStr DISJUNCTION; VList [
     VList [VTuple [VStr "scoped"; VVar "Body"]; store_of [out "output_type" [VStr "yes"]]];
     VList [store_of [out "output_type" [VStr "no"]]]]]]).
(** intents.pl 17-19 *)
Definition intent_value_rule : rule := mkRule [VStr "intent_value"; VVar "Variable"; VVar "Sem"]
  (VList [VTuple [VStr "find_one"; VVar "Variable"; VVar "Sem"; VVar "Result"];
          store_of [out "output_type" [VStr "value"]; out "output_value" [VVar "Result"]]]).
(** intents.pl 21-23 *)
Definition intent_value_with_unit_rule : rule := mkRule [VStr "intent_value_with_unit"; VVar "Variable"; VVar "Unit"; VVar "Sem"]
  (VList [VTuple [VStr "find_one"; VVar "Variable"; VVar "Sem"; VVar "Result"];
          store_of [out "output_type" [VStr "value_with_unit"]; out "output_value_with_unit" [VVar "Result"; VVar "Unit"]]]).
(** intents.pl 25-26 *)
Definition intent_close_rule : rule := mkRule [VStr "intent_close_conversation"]
  (VList [store_of [out "output_type" [VStr "close_conversation"]]]).

Definition intent_rules : rulebase :=
  [ ("intent_list", [intent_list_rule]);
    ("intent_table", [intent_table_rule]);
    ("intent_yn", [intent_yn_rule]);
    ("intent_value", [intent_value_rule]);
    ("intent_value_with_unit", [intent_value_with_unit_rule]);
    ("intent_close_conversation", [intent_close_rule]) ].

(** ** writing *)

(** [list.sort] on texts: by code points *)
Fixpoint insert_text (s : string) (l : list string) : list string :=
  match l with
  | [] => [s]
  | t :: rest => if str_lt t s then t :: insert_text s rest else s :: l
  end.
Definition sort_texts (l : list string) : list string := fold_right insert_text [] l.

Section Writing.
  Context {W : Type}.

  (** write_grammar.py 44-46.  [join] wants texts; only a list has [sort].
      Not modelled: the list in the output buffer, which is about to be
      cleared, is sorted too. *)
  Definition format_list (args : list value) : M W value :=
    match args with
    | [VList l] => match all_text l with
                   | Some ss => ret (VStr (String.concat ", " (sort_texts ss)))
                   | None => throw TypeErr
                   end
    | [_] => throw AttributeErr
    | _ => throw TypeErr
    end.

  Definition write_rule (cons : list constituent) (cond : list value) : grule (@wmean W) :=
    new_rule (phrase "s" []) cons (mkWMean (VList cond) None None) 0.
  Definition format_rule (cons : list constituent) (cond : list value) (f : list value -> M W value) : grule (@wmean W) :=
    new_rule (phrase "s" []) cons (mkWMean (VList cond) (Some f) None) 0.

  (** write_grammar.py 49-69; see [ReplyModel.v] *)
  Variable format_table : list value -> M W value.

  Definition write_rules : list (grule (@wmean W)) := [
    (* en_us_write.py 4-18 *)
    write_rule [quoted "Sorry, I don't understand"] [out "output_type" [VStr "not_understood"]];
    write_rule [quoted "No sentence given"] [out "output_type" [VStr "no_sentence"]];
    write_rule [quoted "Could not understand:"; space; phrase "text" ["E1"]]
      [out "output_type" [VStr "unknown_word"]; out "output_unknown_word" [VVar "E1"]];
    (* write_grammar.py 7-40 *)
    write_rule [quoted "OK"] [out "output_type" [VStr "ok"]];
    write_rule [quoted "yes"] [out "output_type" [VStr "yes"]];
    write_rule [quoted "no"] [out "output_type" [VStr "no"]];
    write_rule [phrase "value" ["E1"]] [out "output_type" [VStr "value"]; out "output_value" [VVar "E1"]];
    write_rule [phrase "text" ["E1"]; space; phrase "text" ["E2"]]
      [out "output_type" [VStr "value_with_unit"]; out "output_value_with_unit" [VVar "E1"; VVar "E2"]];
    format_rule [phrase "format" ["E1"]] [out "output_type" [VStr "list"]; out "output_list" [VVar "E1"]] format_list;
    format_rule [phrase "format" ["E1"; "E2"]]
      [out "output_type" [VStr "table"]; out "output_table" [VVar "E1"; VVar "E2"]] format_table;
    write_rule [quoted "Cheerio."] [out "output_type" [VStr "close_conversation"]] ].
End Writing.

(** ** the loop *)
Section Loop.
  Context {V : Type}.
  Variable mods : list (modul V).
  Variable LB : lens V sds_store.
  Variable format_table : list value -> M V value.
  Variable re_match : string -> string -> outcome (option string).
  Variables kp kc ke : bkind.
  (** SemanticComposer's [query_optimizer] *)
  Variable opt : option (list value -> list string -> outcome (list (string * value))).
  (** limits of the parser and of the solver and the generator *)
  Variables fuel limit : nat.

  (** System.py 41-43: [Solver(self.model).solve([('store', [...])])] *)
  Definition store_output (atoms : list value) : M V unit :=
    solve mods limit (VList [VTuple [VStr "store"; VList atoms]]) [] ;;;
    ret tt.

  (** [system.enter(Request(text))] and, whether it raises or not,
      [system.read_output()] *)
  Definition exchange (text : string) (w : world V) : (outcome (option (option sres)) * outcome value) * world V :=
    let '(o, w1) := ask re_match kp kc ke fuel opt (solver_at mods limit) store_output text w in
    let '(a, w2) := on_model (generate_output (grammar_rules (write_rules format_table)) (solve mods limit) LB limit) w1 in
    ((o, a), w2).

  Fixpoint converse (texts : list string) (w : world V) : list (outcome (option (option sres)) * outcome value) * world V :=
    match texts with
    | [] => ([], w)
    | t :: rest =>
        let '(r, w1) := exchange t w in
        let '(rs, w2) := converse rest w1 in
        (r :: rs, w2)
    end.
End Loop.

(** chat80/test.py: the modules, behind the core module *)
Definition talk_mods {V} (LR : lens V rulebase) (tables : V -> string -> option (list (list value))) (LB : lens V sds_store) : list (modul V) :=
  core_module :: inference_module LR :: table_module tables :: [output_buffer LB].
