(** * Model of /repo/richard/core/atoms.py (without [format_value]) *)

From Coq Require Import ZArith String List Bool.
From Verif Require Import Py.
Import ListNotations.
Local Open Scope list_scope.

(** a Python [set] of names, as the list of its elements; the order of a
    [set] is unspecified, here it is that of first occurrence *)
Definition add_name (s : list string) (x : string) : list string :=
  if existsb (String.eqb x) s then s else s ++ [x].

(** atoms.py 27-36 ([get_atom_variables]) *)
Fixpoint atom_variables (construct : value) : list string :=
  match construct with
  | VVar x => [x]
  | VTuple l | VList l =>
      fold_left (fun s a => fold_left add_name (atom_variables a) s) l []
  | _ => []
  end.

(** atoms.py 39-45 ([get_atoms_variables]) *)
Definition atoms_variables (atoms : list value) : list string :=
  fold_left (fun s a => fold_left add_name (atom_variables a) s) atoms [].

(** atoms.py 48-66 ([bind_variables]) *)
Fixpoint bind_variables (construct : value) (b : binding) : value :=
  match construct with
  | VList l => VList (map (fun a => bind_variables a b) l)
  | VTuple l => VTuple (map (fun a => bind_variables a b) l)
  | VVar x => match bget x b with Some v => v | None => construct end
  | _ => construct
  end.
