(** * A system that looks up the place of birth of people on Wikidata

    /repo/tests/integration/wikidata: the module on the data source
    (WikidataModule.py), the output buffer (WikidataOutputBuffer.py), the rules
    (mapping.pl and intents.pl), the grammar to ask with (read_grammar.py), the
    replies (write_grammar.py) and the system (test.py).

    Simplified: the data source is used without its cache of results, as it is
    when [result_cache_path] is [None]. *)

From Coq Require Import ZArith String Ascii List Bool Arith.
From Verif Require Import Py Effects Solver Atoms Grammar GrammarParser Earley Composer CoreModule InferenceModule InferenceRuleParser
  Sparql SimpleDataSource Memory Generator Pipeline QuestionSystem FragmentModel TalkModel SirModel CooperModel Regex RegexProofs2.
Import ListNotations.
Local Open Scope string_scope.
Local Open Scope list_scope.
Local Open Scope monad_scope.

(** ** [str.title]

    A letter behind something that is not a letter becomes a capital, other
    letters become lower case.  Simplified: of the characters above 127 those of
    Latin-1 that have a capital there. *)
Definition upper_ascii (c : ascii) : ascii :=
  let n := nat_of_ascii c in
  if (Nat.leb 97 n && Nat.leb n 122) || (Nat.leb 224 n && Nat.leb n 254 && negb (Nat.eqb n 247))
  then ascii_of_nat (n - 32) else c.
(** has case: [lower] or [upper] changes it *)
Definition cased (c : ascii) : bool := negb (Ascii.eqb (lower_ascii c) c && Ascii.eqb (upper_ascii c) c).
Fixpoint title_from (inside : bool) (s : string) : string :=
  match s with
  | EmptyString => EmptyString
  | String c s' => String (if inside then lower_ascii c else upper_ascii c) (title_from (cased c) s')
  end.
Definition title : string -> string := title_from false.

Section Wikidata.
  (** the endpoint *)
  Variable E : Type.
  Variable ask : string -> M E response.

  (** what the modules work on: the endpoint, the rules and the output buffer *)
  Record wiki : Type := mkWiki { wi_endpoint : E; wi_rb : rulebase; wi_out : sds_store }.
  Definition wi_endpoint_lens : lens wiki E := mkLens wi_endpoint (fun e w => mkWiki e (wi_rb w) (wi_out w)).
  Definition wi_rb_lens : lens wiki rulebase := mkLens wi_rb (fun r w => mkWiki (wi_endpoint w) r (wi_out w)).
  Definition wi_out_lens : lens wiki sds_store := mkLens wi_out (fun s w => mkWiki (wi_endpoint w) (wi_rb w) s).

  (** WikidataDataSource.py: SparqlDataSource.py 14-21 with the language that is
      the default, and 24-51 without a cache *)
  Definition wi_select (table : string) (columns : list string) (values : list value) : M wiki (list (list value)) := fun w =>
    let '(o, e) := do_select E "en" ask (mkQuery table columns values) (lget wi_endpoint_lens w) in (o, lset wi_endpoint_lens e w).

  (** ** the module *)

  (** WikidataModule.py 25-30 *)
  Definition wikidata_person : solver_if wiki -> list value -> ctx -> M wiki qres := fun _ values _ =>
    person <- CoreModule.item values 0 ;;
    out_values <- wi_select "wdt:P31" [ID; CONSTANT] [person; VStr "wd:Q5"] ;;
    rows (map (fun _ => [VNone]) out_values).

  (** WikidataModule.py 33-46.  Only a text has [title]. *)
  Definition wikidata_label : solver_if wiki -> list value -> ctx -> M wiki qres := fun _ values _ =>
    person <- CoreModule.item values 0 ;;
    name <- CoreModule.item values 1 ;;
    (* try with given case *)
    out_values <- wi_select "rdfs:label" [ID; TEXT] [person; name] ;;
    match out_values with
    | _ :: _ => rows out_values
    | [] =>
        match name with
        | VStr n =>
            (* try with first letters capitalized *)
            out_values <- (if String.eqb n (title n) then ret [] else wi_select "rdfs:label" [ID; TEXT] [person; VStr (title n)]) ;;
            match out_values with
            | _ :: _ => rows out_values
            | [] => throw (Raise (append "Name not found: " n))
            end
        | _ => throw AttributeErr
        end
    end.

  (** WikidataModule.py 49-59.  The messages have [str(values)] behind the colon *)
  Definition wikidata_place_of_birth : solver_if wiki -> list value -> ctx -> M wiki qres := fun _ values _ =>
    person <- CoreModule.item values 0 ;;
    place <- CoreModule.item values 1 ;;
    if is_none person then throw (Raise (append "Person ID is required: " (py_str (VList values))))
    else if negb (is_none place) then throw (Raise (append "Place should be None: " (py_str (VList values))))
    else out_values <- wi_select "wdt:P19" [ID; ID] [person; place] ;; rows out_values.

  (** WikidataModule.py 17-22 *)
  Definition wikidata_module : modul wiki := fun _ p =>
    relation_get p
      [ mkRel "wikidata_label" [] wikidata_label None;
        mkRel "wikidata_place_of_birth" [] wikidata_place_of_birth None;
        mkRel "wikidata_person" [] wikidata_person None ].

  (** WikidataOutputBuffer.py 8-13, after BasicOutputBuffer.py *)
  Definition wiki_columns : list (string * list string) := buffer_columns ++ [("output_report", ["report"])].
  Definition wiki_output_buffer : modul wiki := fun _ p =>
    relation_get p (map (fun pc => memory_relation (buffer_select wi_out_lens) (buffer_insert wi_out_lens) (fst pc) (snd pc)) wiki_columns).

  (** test.py 60-64, behind the core module *)
  Definition wiki_mods : list (modul wiki) :=
    [core_module; inference_module wi_rb_lens; wiki_output_buffer; wikidata_module].

  (** ** writing *)

  (** en_us_write.py 4-18 and write_grammar.py 4-11 *)
  Definition wiki_replies : list (grule (@wmean wiki)) :=
    [ says "Sorry, I don't understand" "not_understood";
      says "No sentence given" "no_sentence";
      write_rule [quoted "Could not understand:"; space; phrase "text" ["E1"]]
        [out "output_type" [VStr "unknown_word"]; out "output_unknown_word" [VVar "E1"]];
      write_rule [phrase "text" ["E1"]] [out "output_type" [VStr "report"]; out "output_report" [VVar "E1"]] ].
End Wikidata.
Arguments mkWiki {E}.
Arguments wi_endpoint {E}.
Arguments wi_rb {E}.
Arguments wi_out {E}.

(** ** the rules *)

(** mapping.pl *)
Definition mapping_text : string :=
"resolve_name(Name, Id) :- wikidata_label(Id, Name), wikidata_person(Id).
place_of_birth(PersonId, Place) :- wikidata_place_of_birth(PersonId, PlaceId), wikidata_label(PlaceId, Place).
".
(** intents.pl *)
Definition intents_text : string :=
"# report
intent_report(A) :- store(output_type('report'), output_report(A)).
".
(** test.py 50-52 *)
Definition wiki_rules : rulebase := Eval vm_compute in
  snd (import_rules (mkLens (fun w => w) (fun s _ => s)) 4000 intents_text
    (snd (import_rules (mkLens (fun w => w) (fun s _ => s)) 4000 mapping_text []))).

(** ** reading *)

(** read_grammar.py 9-26 *)
Definition wiki_texts : list (outcome crule) := [
  read_rule "s(E2) -> 'where' 'was' np(E1) 'born'+'?'"
    (fn1 (fun np => obind (apply np [VList []]) (fun l => plus l (VList [at_ "place_of_birth" [E1; E2]; at_ "intent_report" [E2]])))) [];
  read_rule "nbar(E1) -> noun(E1)" (fn1 Ok) [];
  read_rule "np(E1) -> nbar(E1)" (fn1 (fun nbar => obind (plus nbar Body) template1)) [];
  read_rule "noun(E1) -> proper_noun(E1)" (fn1 Ok) [];
  read_rule "proper_noun(E1) -> /\w+/" (fn1 (fun token => Ok (VList [at_ "resolve_name" [token; E1]]))) []
].
Definition wiki_grammar : list crule := match read_all wiki_texts with Ok l => l | _ => [] end.

(** ** the system *)
Section System.
  Context {E : Type}.
  Variable ask : string -> M E response.
  (** limits of the parser and of the solver and the generator *)
  Variables fuel limit : nat.

  (** test.py 60-64 *)
  Definition wiki_start (e : E) : wiki E := mkWiki e wiki_rules [].
  (** test.py 68-103, DialogTester.py 26-33: FindOne, TryFirst, TryFirst, no
      optimizer *)
  Definition wiki_exchange (text : string) (w : world (wiki E)) : outcome value * world (wiki E) :=
    match QuestionSystem.ask py_match FindOne TryFirst TryFirst fuel None (solver_at (wiki_mods E ask) limit) (store_output (wiki_mods E ask) limit) text w with
    | (Ok _, w1) => on_model (generate_output (grammar_rules (wiki_replies E)) (solve (wiki_mods E ask) limit) (wi_out_lens E) limit) w1
    | (Exn e, w1) => (Exn e, w1)
    | (OutOfFuel, w1) => (OutOfFuel, w1)
    end.
  (** a caller that goes on with the same system, also after an exception *)
  Fixpoint wiki_dialog (texts : list string) (w : world (wiki E)) : list (outcome value) * world (wiki E) :=
    match texts with
    | [] => ([], w)
    | t :: rest =>
        let '(r, w1) := wiki_exchange t w in
        let '(rs, w2) := wiki_dialog rest w1 in
        (r :: rs, w2)
    end.
End System.
