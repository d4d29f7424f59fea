(** * What one may expect of a system that looks up places of birth

    Independent of the model of the code: what the graph says, what a question
    is, and what is the right reply. *)

From Coq Require Import String Ascii List Bool Arith.
From Verif Require Import Py Effects InferenceModule Earley SparqlEngine SirSpec.
Import ListNotations.
Local Open Scope nat_scope.
Local Open Scope string_scope.
Local Open Scope list_scope.

(** ** names *)

Definition small (c : ascii) : Prop := 97 <= nat_of_ascii c <= 122.
Definition big (c : ascii) : Prop := 65 <= nat_of_ascii c <= 90.
Definition letter (c : ascii) : Prop := small c \/ big c.
Definition same_letter (c d : ascii) : Prop :=
  c = d \/ nat_of_ascii c = nat_of_ascii d + 32 \/ nat_of_ascii d = nat_of_ascii c + 32.
(** each word with a capital: a letter at the start, or behind something that is
    not a letter, becomes a capital, and other letters become small ones.  The
    boolean says that there is a letter in front. *)
Inductive titled : bool -> string -> string -> Prop :=
| titled_end b : titled b "" ""
| titled_begins c d s t : letter c -> big d -> same_letter c d -> titled true s t -> titled false (String c s) (String d t)
| titled_goes_on c d s t : letter c -> small d -> same_letter c d -> titled true s t -> titled true (String c s) (String d t)
| titled_other b c s t : ~ letter c -> titled false s t -> titled b (String c s) (String c t).

(** a word of plain letters, digits and underscores *)
Fixpoint plain_chars (s : string) : Prop :=
  match s with EmptyString => True | String c s' => nat_of_ascii c < 128 /\ plain_chars s' end.
Definition person_name (n : string) : Prop := n <> "" /\ all_word n = true /\ plain_chars n.

(** ** questions: "where was NAME born?".  The case of the words does not matter,
    that of the name does *)
Inductive asks_for (n : string) : string -> Prop :=
| where_born w1 w2 w3 : lower w1 = "where" -> lower w2 = "was" -> lower w3 = "born" ->
    asks_for n (append (spaced [w1; w2; n; w3]) "?").

(** ** the graph *)

Record vocabulary : Type := mkVocabulary { v_label : term; v_instance : term; v_birth : term; v_human : term }.

Section Graph.
  Variable V : vocabulary.
  Variable graph : list triple.

  Definition labelled (i n : string) : Prop := In (mkTriple (Iri i) (v_label V) (Text n "en")) graph.
  Definition is_human (i : string) : Prop := In (mkTriple (Iri i) (v_instance V) (v_human V)) graph.
  Definition born_in (i p : string) : Prop := In (mkTriple (Iri i) (v_birth V) (Iri p)) graph.

  Fixpoint resource (i : string) : Prop :=
    match i with EmptyString => True | String c i' => is_iri_char c = true /\ resource i' end.
  (** resources have labels, labels are texts; people are born in resources *)
  Definition orderly : Prop := forall t, In t graph ->
    (t_predicate t = v_label V -> exists i n l, t_subject t = Iri i /\ resource i /\ t_object t = Text n l) /\
    (t_predicate t = v_birth V -> exists i p, t_subject t = Iri i /\ t_object t = Iri p /\ resource p).

  (** who or what has the name; when nothing has it as it is given, who has it with capitals *)
  Definition called (n i : string) : Prop :=
    labelled i n \/ ((forall j, ~ labelled j n) /\ exists t, titled false n t /\ labelled i t).
  Definition unlabelled (p : string) : Prop := forall l, ~ labelled p l.

  (** what is said, or what goes wrong *)
  Inductive right_answer (n : string) : outcome value -> Prop :=
  | the_place i p l : called n i -> is_human i -> born_in i p -> labelled p l ->
      (forall i' p', called n i' -> is_human i' -> born_in i' p' -> ~ unlabelled p') ->
      right_answer n (Ok (VStr l))
  | no_such_name : (forall i, ~ called n i) -> right_answer n (Exn (Raise (append "Name not found: " n)))
  | no_place_known i : called n i -> (forall i' p', called n i' -> is_human i' -> ~ born_in i' p') ->
      right_answer n (Exn (Raise "No rule found"))
  | place_without_label i p : called n i -> is_human i -> born_in i p -> unlabelled p ->
      right_answer n (Exn AttributeErr).

  (** the names of the places where people with the name were born *)
  Definition birthplace (n l : string) : Prop := exists i, called n i /\ is_human i /\ exists p, born_in i p /\ labelled p l.
  Definition all_places_labelled (n : string) : Prop := forall i p, called n i -> is_human i -> born_in i p -> ~ unlabelled p.

  (** one question, when there are reports left from the questions before it:
      what is said, and which reports are left *)
  Inductive turn (n : string) : list string -> outcome value -> list string -> Prop :=
  | turn_told left places l more i : called n i -> all_places_labelled n -> (forall p, In p places <-> birthplace n p) ->
      left ++ places = l :: more -> turn n left (Ok (VStr l)) []
  | turn_nothing i : called n i -> all_places_labelled n -> (forall p, ~ birthplace n p) ->
      turn n [] (Exn (Raise "No rule found")) []
  | turn_nobody left : (forall i, ~ called n i) -> turn n left (Exn (Raise (append "Name not found: " n))) left
  | turn_unlabelled left places i p : called n i -> is_human i -> born_in i p -> unlabelled p ->
      (forall l, In l places -> birthplace n l) -> turn n left (Exn AttributeErr) (left ++ places).
  (** questions one after the other *)
  Inductive turns : list string -> list string -> list (outcome value) -> list string -> Prop :=
  | turns_end left : turns [] left [] left
  | turns_go_on n ns left o left1 os left2 : turn n left o left1 -> turns ns left1 os left2 -> turns (n :: ns) left (o :: os) left2.
End Graph.
