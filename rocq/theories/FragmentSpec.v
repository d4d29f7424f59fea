(** * Specification: questions in a fragment of English, and what they mean

    The fragment is that of the grammar in
    /repo/tests/integration/chat80/read_grammar.py: "which country borders a
    country that is bordered by no sea".  Independent of parser, composer and
    solver: a question is a tree of phrases with a text; it has a meaning in
    every interpretation of the predicates. *)

From Coq Require Import ZArith String List Bool Arith.
From Verif Require Import Py DatalogSpec.
Import ListNotations.
Local Open Scope string_scope.
Local Open Scope list_scope.

(** a word and the predicate it stands for *)
Definition entry : Type := (string * string)%type.

(** "a", "the", "some", "any"; "no"; "every"; "two"; "more than two" *)
Inductive det : Type :=
| Some_ (w : string)
| No
| Every
| Number (w : string) (k : Z)
| MoreThan (w : string) (k : Z).

(** [nbar]: "river", "european country", "country that ..."
    [rcl]: "that borders ...", "that ... and that ..."
    [vp]: "borders a sea", "is bordered by every sea", "does not ..."
    [np]: "a sea", "seas" *)
Inductive nbar : Type :=
| Noun (n : entry)
| Adj (a : entry) (b : nbar)
| Rel (b : nbar) (r : rcl)
with rcl : Type :=
| That (v : vp)
| And (r1 r2 : rcl)
with vp : Type :=
| Active (t : entry) (o : np)
| Passive (t : entry) (o : np)
| Not (v : vp)
with np : Type :=
| Bare (b : nbar)
| Det (d : det) (b : nbar).

(** "which country borders a sea" *)
Inductive question : Type := Which (b : nbar) (v : vp).

(** ** texts *)

Definition det_text (d : det) : string :=
  match d with
  | Some_ w => w
  | No => "no"
  | Every => "every"
  | Number w _ => w
  | MoreThan w _ => "more than " ++ w
  end.

Fixpoint nbar_text (b : nbar) : string :=
  match b with
  | Noun n => fst n
  | Adj a b => fst a ++ " " ++ nbar_text b
  | Rel b r => nbar_text b ++ " " ++ rcl_text r
  end
with rcl_text (r : rcl) : string :=
  match r with
  | That v => "that " ++ vp_text v
  | And r1 r2 => rcl_text r1 ++ " and " ++ rcl_text r2
  end
with vp_text (v : vp) : string :=
  match v with
  | Active t o => fst t ++ " " ++ np_text o
  | Passive t o => "is " ++ fst t ++ " by " ++ np_text o
  | Not v => "does not " ++ vp_text v
  end
with np_text (o : np) : string :=
  match o with
  | Bare b => nbar_text b
  | Det d b => det_text d ++ " " ++ nbar_text b
  end.

Definition question_text (q : question) : string :=
  match q with Which b v => "which " ++ nbar_text b ++ " " ++ vp_text v end.

(** ** words *)

Record lexicon : Type := mkLexicon {
  lx_nouns : list entry;
  lx_adjectives : list entry;
  lx_verbs : list entry;
  lx_somes : list string;
  lx_numbers : list (string * Z)
}.

Section Words.
  Variable lx : lexicon.

  Definition det_in (d : det) : Prop :=
    match d with
    | Some_ w => In w (lx_somes lx)
    | No | Every => True
    | Number w k | MoreThan w k => In (w, k) (lx_numbers lx)
    end.
  Fixpoint nbar_in (b : nbar) : Prop :=
    match b with
    | Noun n => In n (lx_nouns lx)
    | Adj a b => In a (lx_adjectives lx) /\ nbar_in b
    | Rel b r => nbar_in b /\ rcl_in r
    end
  with rcl_in (r : rcl) : Prop :=
    match r with
    | That v => vp_in v
    | And r1 r2 => rcl_in r1 /\ rcl_in r2
    end
  with vp_in (v : vp) : Prop :=
    match v with
    | Active t o | Passive t o => In t (lx_verbs lx) /\ np_in o
    | Not v => vp_in v
    end
  with np_in (o : np) : Prop :=
    match o with
    | Bare b => nbar_in b
    | Det d b => det_in d /\ nbar_in b
    end.
  Definition question_in (q : question) : Prop :=
    match q with Which b v => nbar_in b /\ vp_in v end.
End Words.

(** ** meaning *)

Section Truth.
  (** which rows stand in which relation; the individuals are all constants *)
  Variable ext : string -> list value -> Prop.
  Definition individual (c : value) : Prop := constant c = true.

  (** there are [n] individuals of this kind *)
  Definition how_many (P : value -> Prop) (n : nat) : Prop :=
    exists l, NoDup l /\ length l = n /\ forall c, In c l <-> individual c /\ P c.

  (** "every" means that there are some, too *)
  Definition quant (d : det) (A P : value -> Prop) : Prop :=
    match d with
    | Some_ _ => exists c, individual c /\ A c /\ P c
    | No => ~ exists c, individual c /\ A c /\ P c
    | Every => (exists c, individual c /\ A c) /\ forall c, individual c -> A c -> P c
    | Number _ k => exists n, how_many (fun c => A c /\ P c) n /\ Z.of_nat n = k
    | MoreThan _ k => exists n, how_many (fun c => A c /\ P c) n /\ (Z.of_nat n > k)%Z
    end.

  Fixpoint nbar_true (b : nbar) (c : value) : Prop :=
    match b with
    | Noun n => ext (snd n) [c]
    | Adj a b => ext (snd a) [c] /\ nbar_true b c
    | Rel b r => nbar_true b c /\ rcl_true r c
    end
  with rcl_true (r : rcl) (c : value) : Prop :=
    match r with
    | That v => vp_true v c
    | And r1 r2 => rcl_true r1 c /\ rcl_true r2 c
    end
  with vp_true (v : vp) (c : value) : Prop :=
    match v with
    | Active t o => np_true o (fun d => ext (snd t) [c; d])
    | Passive t o => np_true o (fun d => ext (snd t) [d; c])
    | Not v => ~ vp_true v c
    end
  with np_true (o : np) (P : value -> Prop) : Prop :=
    match o with
    | Bare b => exists c, individual c /\ nbar_true b c /\ P c
    | Det d b => quant d (nbar_true b) P
    end.

  (** the individuals that are an answer *)
  Definition question_true (q : question) (c : value) : Prop :=
    match q with Which b v => individual c /\ nbar_true b c /\ vp_true v c end.
End Truth.

(** ** numbers

    The system counts combinations of values.  A phrase with a number is only
    understood as it should be if its relative clauses do not mention further
    individuals: "two countries that border a sea" counts pairs. *)

Definition det_single (d : det) : Prop :=
  match d with Some_ _ | Every => False | _ => True end.
Definition np_single (o : np) : Prop :=
  match o with Bare _ => False | Det d _ => det_single d end.
Definition vp_single (v : vp) : Prop :=
  match v with Active _ o | Passive _ o => np_single o | Not _ => True end.
Fixpoint rcl_single (r : rcl) : Prop :=
  match r with That v => vp_single v | And r1 r2 => rcl_single r1 /\ rcl_single r2 end.
Fixpoint nbar_single (b : nbar) : Prop :=
  match b with
  | Noun _ => True
  | Adj _ b => nbar_single b
  | Rel b r => nbar_single b /\ rcl_single r
  end.
Definition counts (d : det) : Prop :=
  match d with Number _ _ | MoreThan _ _ => True | _ => False end.

Fixpoint nbar_counts (b : nbar) : Prop :=
  match b with
  | Noun _ => True
  | Adj _ b => nbar_counts b
  | Rel b r => nbar_counts b /\ rcl_counts r
  end
with rcl_counts (r : rcl) : Prop :=
  match r with
  | That v => vp_counts v
  | And r1 r2 => rcl_counts r1 /\ rcl_counts r2
  end
with vp_counts (v : vp) : Prop :=
  match v with
  | Active _ o | Passive _ o => np_counts o
  | Not v => vp_counts v
  end
with np_counts (o : np) : Prop :=
  match o with
  | Bare b => nbar_counts b
  | Det d b => nbar_counts b /\ (counts d -> nbar_single b)
  end.
Definition question_counts (q : question) : Prop :=
  match q with Which b v => nbar_counts b /\ vp_counts v end.
