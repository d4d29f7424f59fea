(** * What a write grammar writes, as a relation

    Big-step rules for the text of a category.  The used rules are threaded
    through the whole text; states are threaded through conditions and
    functions.  Nothing here mentions fuel or how a rule is searched. *)

From Coq Require Import ZArith String List Bool.
From Verif Require Import Py Effects Solver Grammar Generator PropOutput.
Import ListNotations.
Local Open Scope string_scope.
Local Open Scope list_scope.

(** the texts one after the other, nothing between them *)
Fixpoint joined (l : list string) : string :=
  match l with [] => "" | s :: rest => append s (joined rest) end.

(** texts are joined; a single other value is the result itself; several
    values that are not all texts become a list *)
Inductive combined : list value -> value -> Prop :=
| cb_text ss : combined (map VStr ss) (VStr (joined ss))
| cb_single v : (forall s, v <> VStr s) -> combined [v] v
| cb_list vs v : length vs <> 1 -> In v vs -> (forall s, v <> VStr s) -> combined vs (VList vs).

(** the argument of a consequent: the value of its variable, or an empty
    text *)
Definition argument_value (b : binding) (x : string) (v : value) : Prop :=
  bget x b = Some v \/ (bget x b = None /\ v = VStr "").

Section Writes.
  Context {W : Type}.
  Variable grammar : gindex (@wmean W).
  Variable slv : value -> binding -> M W sres.
  Notation wrule := (grule (@wmean W)).
  Notation hashes := (list (list chash)).

  (** the rules before [r] do not match, [r] does and either was not used
      before, or there is no rule after it *)
  Definition chosen (used : hashes) (cat : string) (values : list value) (w : W) (r : wrule) (b : binding) (w' : W) : Prop :=
    exists pre post, find_rules grammar cat (length values) = pre ++ r :: post /\
      Forall (does_not_match slv values w) pre /\ matches slv values w r b w' /\
      (used_before used r -> post = []).

  Inductive writes : hashes -> string -> list value -> bool -> W -> value -> hashes -> W -> Prop :=
  | wr_rule used cat values optional w r b w1 vs used' w2 v v' w3 :
      chosen used cat values w r b w1 ->
      writes_all r b (used ++ [g_hash r]) (g_cons r) w1 vs used' w2 ->
      combined vs v ->
      (forall f, w_post (g_mean r) = Some f -> f v w2 = (Ok v', w3)) ->
      (w_post (g_mean r) = None -> v' = v /\ w3 = w2) ->
      writes used cat values optional w v' used' w3
  | wr_nothing used cat values w :
      Forall (does_not_match slv values w) (find_rules grammar cat (length values)) ->
      writes used cat values true w (VStr "") used w
  with writes_all : wrule -> binding -> hashes -> list constituent -> W -> list value -> hashes -> W -> Prop :=
  | wa_nil r b used w : writes_all r b used [] w [] used w
  | wa_cons r b used c cs w v vs used1 w1 used' w' :
      writes_one r b used c w v used1 w1 ->
      writes_all r b used1 cs w1 vs used' w' ->
      writes_all r b used (c :: cs) w (v :: vs) used' w'
  with writes_one : wrule -> binding -> hashes -> constituent -> W -> value -> hashes -> W -> Prop :=
  | wo_word r b used c w : k_type c = PWord -> writes_one r b used c w (VStr (k_pred c)) used w
  | wo_value r b used c w x more v :
      k_type c <> PWord -> k_pred c = "value" -> k_args c = x :: more -> argument_value b x v ->
      writes_one r b used c w v used w
  | wo_text r b used c w x more v :
      k_type c <> PWord -> k_pred c = "text" -> k_args c = x :: more -> argument_value b x v ->
      writes_one r b used c w (VStr (py_str v)) used w
  | wo_format r b used c w vs f v w' :
      k_type c <> PWord -> k_pred c = "format" -> Forall2 (argument_value b) (k_args c) vs ->
      w_format (g_mean r) = Some f -> f vs w = (Ok v, w') ->
      writes_one r b used c w v used w'
  | wo_category r b used c w vs v used' w' :
      k_type c <> PWord -> ~ In (k_pred c) ["value"; "text"; "format"] ->
      Forall2 (argument_value b) (k_args c) vs ->
      writes used (k_pred c) vs (k_optional c) w v used' w' ->
      writes_one r b used c w v used' w'.
End Writes.
