(** * Specification: a conversation in a fragment of English

    Sentences as in /repo/tests/integration/chat80/read_grammar.py, built from
    the phrases of FragmentSpec.v, and the replies they should get.
    Independent of parser, composer, solver and generator. *)

From Coq Require Import ZArith String List Bool Sorted.
From Verif Require Import Py DatalogSpec FragmentSpec.
Import ListNotations.
Local Open Scope string_scope.
Local Open Scope list_scope.

Inductive sentence : Type :=
| SWhich (b : nbar) (v : vp)       (** "which country borders a sea?" *)
| SWhat (b : nbar)                 (** "what countries are there?" *)
| SDoes (o : np) (v : vp)          (** "does every country border a sea?" *)
| SIsThere (o : np)                (** "is there a country that borders no sea?" *)
| SHowMany (b : nbar) (v : vp).    (** "how many countries border a sea?" *)

Definition sentence_text (s : sentence) : string :=
  match s with
  | SWhich b v => "which " ++ nbar_text b ++ " " ++ vp_text v ++ "?"
  | SWhat b => "what " ++ nbar_text b ++ " are there?"
  | SDoes o v => "does " ++ np_text o ++ " " ++ vp_text v ++ "?"
  | SIsThere o => "is there " ++ np_text o ++ "?"
  | SHowMany b v => "how many " ++ nbar_text b ++ " " ++ vp_text v ++ "?"
  end.

Definition sentence_in (lx : lexicon) (s : sentence) : Prop :=
  match s with
  | SWhich b v | SHowMany b v => nbar_in lx b /\ vp_in lx v
  | SWhat b => nbar_in lx b
  | SDoes o v => np_in lx o /\ vp_in lx v
  | SIsThere o => np_in lx o
  end.

(** ** replies *)

Definition comes_before (a b : string) : Prop := String.compare a b = Lt.
(** the texts, each one once, in alphabetical order *)
Definition listing (l : list string) (P : value -> Prop) : Prop :=
  StronglySorted comes_before l /\ forall c, P c <-> exists s, c = VStr s /\ In s l.

Section Replies.
  Variable ext : string -> list value -> Prop.

  Inductive reply : sentence -> value -> Prop :=
  | r_which b v l : listing l (question_true ext (Which b v)) -> reply (SWhich b v) (VStr (String.concat ", " l))
  | r_what b l : listing l (fun c => individual c /\ nbar_true ext b c) -> reply (SWhat b) (VStr (String.concat ", " l))
  | r_does_yes o v : np_true ext o (vp_true ext v) -> reply (SDoes o v) (VStr "yes")
  | r_does_no o v : ~ np_true ext o (vp_true ext v) -> reply (SDoes o v) (VStr "no")
  | r_is_there_yes o : np_true ext o (fun _ => True) -> reply (SIsThere o) (VStr "yes")
  | r_is_there_no o : ~ np_true ext o (fun _ => True) -> reply (SIsThere o) (VStr "no")
  | r_how_many b v n : how_many (fun c => nbar_true ext b c /\ vp_true ext v c) n -> reply (SHowMany b v) (VInt (Z.of_nat n)).
End Replies.

(** ** numbers: see FragmentSpec.v *)

Definition subject_counts (o : np) (v : vp) : Prop :=
  match o with Bare _ => True | Det d b => counts d -> nbar_single b /\ vp_single v end.
Definition sentence_counts (s : sentence) : Prop :=
  match s with
  | SWhich b v => nbar_counts b /\ vp_counts v
  | SWhat b => nbar_counts b
  | SDoes o v => np_counts o /\ vp_counts v /\ subject_counts o v
  | SIsThere o => np_counts o
  | SHowMany b v => nbar_counts b /\ vp_counts v /\ nbar_single b /\ vp_single v
  end.
