(** * Model of /repo/richard/entity/ResultIterator.py *)

From Coq Require Import ZArith String List Bool.
From Verif Require Import Py Effects.
Import ListNotations.
Local Open Scope Z_scope.

(** ResultIterator.py 7-14 *)
Record result_iterator : Type := mkIter {
  it_single : value;
  it_number : Z;
  it_index : Z
}.
Definition new_iterator (single : value) (number : Z) : result_iterator :=
  mkIter single number 0.

(** ResultIterator.py 19-20; [len()] itself rejects a negative length *)
Definition it_len (it : result_iterator) : outcome Z :=
  if it_number it <? 0 then Exn ValueErr else Ok (it_number it).

(** ResultIterator.py 22-26; [None] is [StopIteration] *)
Definition it_next (it : result_iterator) : option string * result_iterator :=
  let i := it_index it + 1 in
  let it' := mkIter (it_single it) (it_number it) i in
  if i >? it_number it then (None, it')
  else (Some (py_str (it_single it) ++ py_str (VInt i))%string, it').

(** [list(it)]: [__iter__] returns the iterator itself (16-17), so a loop
    goes on where the last one stopped *)
Fixpoint it_list (fuel : nat) (it : result_iterator) : outcome (list string) * result_iterator :=
  match fuel with
  | O => (OutOfFuel, it)
  | S fuel' =>
      match it_next it with
      | (None, it') => (Ok [], it')
      | (Some x, it') =>
          match it_list fuel' it' with
          | (Ok l, it'') => (Ok (x :: l), it'')
          | (Exn e, it'') => (Exn e, it'')
          | (OutOfFuel, it'') => (OutOfFuel, it'')
          end
      end
  end.
