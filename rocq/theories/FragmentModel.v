(** * A fragment of the grammar of chat80

    The rules of /repo/tests/integration/chat80/read_grammar.py (lines cited
    below) for nouns, adjectives, relative clauses, active and passive verb
    phrases, negation and determiners; the rule for 'every' is that of
    /repo/tests/unit/Quantifier_test.py 91-92.  The words are given by a
    lexicon.  Simplified: the question "which ... ?" has no question mark and
    returns its meaning as a query, without the intent atom of chat80 (lines
    73-76), and the categories are called vp, rcl instead of vp_nosub_obj,
    vp_noobj_sub, relative_clause. *)

From Coq Require Import ZArith String List.
From Verif Require Import Py Effects Grammar Earley Composer FragmentSpec.
Import ListNotations.
Local Open Scope string_scope.
Local Open Scope list_scope.

(** constants.py 43-44 *)
Definition range_token : string := "__$Range$__".
Definition body_token : string := "__$Body$__".
Definition Range : value := VList [VStr range_token].
Definition Body : value := VList [VStr body_token].
Definition E1 : value := VVar "E1".
Definition E2 : value := VVar "E2".

Definition phrase (p : string) (args : list string) : constituent := mkCons p args PRelation false false.
Definition quoted (w : string) : constituent := mkCons w [] PWord false false.
(** the space between two constituents, SimpleGrammarRulesParser.py 153 *)
Definition space : constituent := mkCons " " [] PWord false true.
Definition rule_of (ante : constituent) (cons : list constituent) (f : list value -> outcome value) : crule :=
  new_rule ante cons (mkMeaning (Some f) None (DAtoms [])) 0.

(** calling a lambda with the wrong number of arguments, or adding other
    things than lists, is a TypeError *)
Definition no_argument (v : value) (args : list value) : outcome value :=
  match args with [] => Ok v | _ => Exn TypeErr end.
Definition concatenate (args : list value) : outcome value :=
  match args with [VList a; VList b] => Ok (VList (a ++ b)) | _ => Exn TypeErr end.
(** SemanticTemplate([Body], l) *)
Definition template1 (v : value) : outcome value :=
  match v with VList l => Ok (VTmpl [Body] l) | _ => Exn TypeErr end.
Definition template2 (l : list value) : value := VTmpl [Range; Body] l.

(** s(E1) -> 'which' nbar(E1) vp(E1)        (cf. 73-76) *)
Definition s_which := rule_of (phrase "s" ["E1"]) [quoted "which"; space; phrase "nbar" ["E1"]; space; phrase "vp" ["E1"]] concatenate.
(** vp(E1) -> tv(E1, E2) np(E2)             (100) *)
Definition vp_active := rule_of (phrase "vp" ["E1"]) [phrase "tv" ["E1"; "E2"]; space; phrase "np" ["E2"]]
  (fun args => match args with [tv; np] => apply np [tv] | _ => Exn TypeErr end).
(** vp(E1) -> 'is' tv(E2, E1) 'by' np(E2)   (108) *)
Definition vp_passive := rule_of (phrase "vp" ["E1"])
  [quoted "is"; space; phrase "tv" ["E2"; "E1"]; space; quoted "by"; space; phrase "np" ["E2"]]
  (fun args => match args with [tv; np] => apply np [tv] | _ => Exn TypeErr end).
(** vp(E1) -> 'does' 'not' vp(E1)           (101) *)
Definition vp_not := rule_of (phrase "vp" ["E1"]) [quoted "does"; space; quoted "not"; space; phrase "vp" ["E1"]]
  (fun args => match args with [vp] => Ok (VList [VTuple [VStr "not"; vp]]) | _ => Exn TypeErr end).
(** nbar(E1) -> noun(E1)                    (133) *)
Definition nbar_noun := rule_of (phrase "nbar" ["E1"]) [phrase "noun" ["E1"]]
  (fun args => match args with [noun] => Ok noun | _ => Exn TypeErr end).
(** nbar(E1) -> adj(E1) nbar(E1)            (132) *)
Definition nbar_adj := rule_of (phrase "nbar" ["E1"]) [phrase "adj" ["E1"]; space; phrase "nbar" ["E1"]] concatenate.
(** nbar(E1) -> nbar(E1) rcl(E1)            (136) *)
Definition nbar_rel := rule_of (phrase "nbar" ["E1"]) [phrase "nbar" ["E1"]; space; phrase "rcl" ["E1"]] concatenate.
(** rcl(E1) -> 'that' vp(E1)                (140-141) *)
Definition rcl_that := rule_of (phrase "rcl" ["E1"]) [quoted "that"; space; phrase "vp" ["E1"]]
  (fun args => match args with [vp] => Ok vp | _ => Exn TypeErr end).
(** rcl(E1) -> rcl(E1) 'and' rcl(E1)        (142) *)
Definition rcl_and := rule_of (phrase "rcl" ["E1"]) [phrase "rcl" ["E1"]; space; quoted "and"; space; phrase "rcl" ["E1"]] concatenate.
(** np(E1) -> nbar(E1)                      (149-150) *)
Definition np_bare := rule_of (phrase "np" ["E1"]) [phrase "nbar" ["E1"]]
  (fun args => match args with [VList nbar] => template1 (VList (nbar ++ [VStr body_token])) | _ => Exn TypeErr end).
(** np(E1) -> det(E1) nbar(E1)              (151-152) *)
Definition np_det := rule_of (phrase "np" ["E1"]) [phrase "det" ["E1"]; space; phrase "nbar" ["E1"]]
  (fun args => match args with [det; nbar] => obind (apply det [nbar; Body]) template1 | _ => Exn TypeErr end).
(** det(E1) -> 'a', 'the', 'some', 'any'    (159-166) *)
Definition det_some (w : string) := rule_of (phrase "det" ["E1"]) [quoted w]
  (no_argument (template2 [VStr range_token; VStr body_token])).
(** det(E1) -> 'no'                         (167-168) *)
Definition det_no := rule_of (phrase "det" ["E1"]) [quoted "no"]
  (no_argument (template2 [VTuple [VStr "none"; VList [VStr range_token; VStr body_token]]])).
(** det(E1) -> 'every'                      (Quantifier_test.py 91-92) *)
Definition det_every := rule_of (phrase "det" ["E1"]) [quoted "every"]
  (no_argument (template2 [VTuple [VStr "all"; E1; Range; Body]])).
(** det(E1) -> number(E1)                   (169-170) *)
Definition det_number := rule_of (phrase "det" ["E1"]) [phrase "number" ["E1"]]
  (fun args => match args with
               | [n] => Ok (template2 [VTuple [VStr "det_equals"; VList [VStr range_token; VStr body_token]; n]])
               | _ => Exn TypeErr end).
(** det(E1) -> 'more' 'than' number(E1)     (171-172) *)
Definition det_more := rule_of (phrase "det" ["E1"]) [quoted "more"; space; quoted "than"; space; phrase "number" ["E1"]]
  (fun args => match args with
               | [n] => Ok (template2 [VTuple [VStr "det_greater_than"; VList [VStr range_token; VStr body_token]; n]])
               | _ => Exn TypeErr end).
(** words: noun(E1) -> 'river' and so on    (118-123, 185-194, 210-213, 216-222) *)
Definition noun_word (n : entry) := rule_of (phrase "noun" ["E1"]) [quoted (fst n)]
  (no_argument (VList [VTuple [VStr (snd n); E1]])).
Definition adj_word (n : entry) := rule_of (phrase "adj" ["E1"]) [quoted (fst n)]
  (no_argument (VList [VTuple [VStr (snd n); E1]])).
Definition verb_word (n : entry) := rule_of (phrase "tv" ["E1"; "E2"]) [quoted (fst n)]
  (no_argument (VList [VTuple [VStr (snd n); E1; E2]])).
Definition number_word (n : string * Z) := rule_of (phrase "number" ["E1"]) [quoted (fst n)]
  (no_argument (VInt (snd n))).

Definition fragment (lx : lexicon) : list crule :=
  [s_which; vp_active; vp_passive; vp_not; nbar_noun; nbar_adj; nbar_rel; rcl_that; rcl_and; np_bare; np_det;
   det_no; det_every; det_number; det_more] ++
  map det_some (lx_somes lx) ++ map noun_word (lx_nouns lx) ++ map adj_word (lx_adjectives lx) ++
  map verb_word (lx_verbs lx) ++ map number_word (lx_numbers lx).
