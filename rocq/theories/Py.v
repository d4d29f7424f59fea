(** * Python values, equality, order, arithmetic and [repr]

    The fragment of Python's data model that values flowing through
    richard use.  There is no file in /repo for this: it models the
    CPython 3 built-ins that the modelled code calls.

    Simplifications (see DESIGN.md):
    - strings are sequences of 8-bit characters;
    - [float] is modelled by exact rationals (no rounding, no nan/inf);
    - [repr] of a float is not the decimal text CPython prints, but the
      text of the reduced fraction; characters >= 127 are printed as
      [\xhh]. *)

From Coq Require Import ZArith QArith Qreduction String Ascii List Bool Lia.
From Coq Require Import DecimalString.
Import ListNotations.
Local Close Scope Q_scope.
Local Open Scope nat_scope.
Local Open Scope string_scope.
Local Open Scope list_scope.

(** /repo/richard/entity/Variable.py 4-11 ([VVar]),
    /repo/richard/entity/ReifiedVariable.py 4-6 ([VReif]),
    /repo/richard/type/SemanticTemplate.py 4-7 ([VTmpl]); the other
    constructors are Python built-ins. *)
Inductive value : Type :=
| VNone
| VBool (b : bool)
| VInt (z : Z)
| VFloat (q : Q)
| VStr (s : string)
| VVar (name : string)
| VReif (name : string)
| VTuple (l : list value)
| VList (l : list value)
| VTmpl (args : list value) (body : list value).

(** Induction principle with hypotheses for the nested lists. *)
Section ValueInd.
  Variable P : value -> Prop.
  Hypothesis HNone : P VNone.
  Hypothesis HBool : forall b, P (VBool b).
  Hypothesis HInt : forall z, P (VInt z).
  Hypothesis HFloat : forall q, P (VFloat q).
  Hypothesis HStr : forall s, P (VStr s).
  Hypothesis HVar : forall s, P (VVar s).
  Hypothesis HReif : forall s, P (VReif s).
  Hypothesis HTuple : forall l, Forall P l -> P (VTuple l).
  Hypothesis HList : forall l, Forall P l -> P (VList l).
  Hypothesis HTmpl : forall a b, Forall P a -> Forall P b -> P (VTmpl a b).

  Fixpoint value_ind' (v : value) : P v :=
    let all := fix all (l : list value) : Forall P l :=
      match l with
      | [] => Forall_nil P
      | x :: t => Forall_cons x (value_ind' x) (all t)
      end in
    match v with
    | VNone => HNone
    | VBool b => HBool b
    | VInt z => HInt z
    | VFloat q => HFloat q
    | VStr s => HStr s
    | VVar s => HVar s
    | VReif s => HReif s
    | VTuple l => HTuple l (all l)
    | VList l => HList l (all l)
    | VTmpl a b => HTmpl a b (all a) (all b)
    end.
End ValueInd.

(** ** [==] *)

(** the numeric value of a number; [True] is 1 and [False] is 0 *)
Definition num_of (v : value) : option Q :=
  match v with
  | VBool b => Some (if b then 1%Q else 0%Q)
  | VInt z => Some (inject_Z z)
  | VFloat q => Some q
  | _ => None
  end.

(** elementwise comparison of two lists *)
Fixpoint forall2b {A B : Type} (f : A -> B -> bool) (l : list A) (m : list B) : bool :=
  match l, m with
  | [], [] => true
  | x :: l', y :: m' => f x y && forall2b f l' m'
  | _, _ => false
  end.

(** Python [a == b] *)
Fixpoint py_eq (a b : value) {struct a} : bool :=
  let eqs := fix eqs (l m : list value) {struct l} : bool :=
    match l, m with
    | [], [] => true
    | x :: l', y :: m' => py_eq x y && eqs l' m'
    | _, _ => false
    end in
  match a with
  | VNone => match b with VNone => true | _ => false end
  | VBool _ | VInt _ | VFloat _ =>
      match num_of a, num_of b with
      | Some p, Some q => Qeq_bool p q
      | _, _ => false
      end
  | VStr s => match b with VStr t => String.eqb s t | _ => false end
  | VVar s => match b with VVar t => String.eqb s t | _ => false end
  | VReif s => match b with VReif t => String.eqb s t | _ => false end
  | VTuple l => match b with VTuple m => eqs l m | _ => false end
  | VList l => match b with VList m => eqs l m | _ => false end
  | VTmpl xa xb => match b with VTmpl ya yb => eqs xa ya && eqs xb yb | _ => false end
  end.

(** Python [x in l] for a list [l] *)
Definition py_in (x : value) (l : list value) : bool :=
  existsb (fun y => py_eq x y) l.

(** [x is None] *)
Definition is_none (v : value) : bool :=
  match v with VNone => true | _ => false end.

(** Can [v] be a dict key?  Lists cannot; a tuple or a frozen dataclass
    can when all its fields can ([SemanticTemplate] holds lists, so it
    never can). *)
Fixpoint hashable (v : value) : bool :=
  match v with
  | VList _ | VTmpl _ _ => false
  | VTuple l => forallb hashable l
  | _ => true
  end.

(** ** [<] : [None] means [TypeError] *)

Fixpoint str_lt (s t : string) : bool :=
  match s, t with
  | EmptyString, EmptyString => false
  | EmptyString, _ => true
  | _, EmptyString => false
  | String a s', String b t' =>
      if Ascii.eqb a b then str_lt s' t'
      else Nat.ltb (nat_of_ascii a) (nat_of_ascii b)
  end.

Definition Qlt_bool (p q : Q) : bool := negb (Qle_bool q p).

Fixpoint py_lt (a b : value) {struct a} : option bool :=
  let lts := fix lts (l m : list value) {struct l} : option bool :=
    match l, m with
    | [], [] => Some false
    | [], _ :: _ => Some true
    | _ :: _, [] => Some false
    | x :: l', y :: m' => if py_eq x y then lts l' m' else py_lt x y
    end in
  match a with
  | VBool _ | VInt _ | VFloat _ =>
      match num_of a, num_of b with
      | Some p, Some q => Some (Qlt_bool p q)
      | _, _ => None
      end
  | VStr s => match b with VStr t => Some (str_lt s t) | _ => None end
  | VTuple l => match b with VTuple m => lts l m | _ => None end
  | VList l => match b with VList m => lts l m | _ => None end
  | _ => None
  end.

(** Python [a > b] is the reflected [b < a] for all built-in types used here *)
Definition py_gt (a b : value) : option bool := py_lt b a.

(** ** arithmetic: [None] means [TypeError] *)

Definition int_of (v : value) : option Z :=
  match v with VBool b => Some (if b then 1%Z else 0%Z) | VInt z => Some z | _ => None end.

(** Python [a + b] *)
Definition py_add (a b : value) : option value :=
  match int_of a, int_of b with
  | Some x, Some y => Some (VInt (x + y))
  | _, _ =>
      match num_of a, num_of b with
      | Some p, Some q => Some (VFloat (Qred (p + q)))
      | _, _ =>
          match a, b with
          | VStr s, VStr t => Some (VStr (String.append s t))
          | VTuple l, VTuple m => Some (VTuple (l ++ m))
          | VList l, VList m => Some (VList (l ++ m))
          | _, _ => None
          end
      end
  end.

Fixpoint str_repeat (n : nat) (s : string) : string :=
  match n with O => "" | S n' => String.append s (str_repeat n' s) end.
Fixpoint list_repeat {A : Type} (n : nat) (l : list A) : list A :=
  match n with O => [] | S n' => l ++ list_repeat n' l end.

(** a sequence times an integer *)
Definition seq_mul (s : value) (k : Z) : option value :=
  match s with
  | VStr t => Some (VStr (str_repeat (Z.to_nat k) t))
  | VTuple l => Some (VTuple (list_repeat (Z.to_nat k) l))
  | VList l => Some (VList (list_repeat (Z.to_nat k) l))
  | _ => None
  end.

(** Python [a * b] *)
Definition py_mul (a b : value) : option value :=
  match int_of a, int_of b with
  | Some x, Some y => Some (VInt (x * y))
  | Some x, None => match num_of b with
                    | Some q => Some (VFloat (Qred (inject_Z x * q)))
                    | None => seq_mul b x
                    end
  | None, Some y => match num_of a with
                    | Some p => Some (VFloat (Qred (p * inject_Z y)))
                    | None => seq_mul a y
                    end
  | None, None =>
      match num_of a, num_of b with
      | Some p, Some q => Some (VFloat (Qred (p * q)))
      | _, _ => None
      end
  end.

(** ** [repr] and [str] *)

Definition hex_digit (n : nat) : ascii :=
  match n with
  | 0 => "0" | 1 => "1" | 2 => "2" | 3 => "3" | 4 => "4" | 5 => "5" | 6 => "6" | 7 => "7"
  | 8 => "8" | 9 => "9" | 10 => "a" | 11 => "b" | 12 => "c" | 13 => "d" | 14 => "e" | _ => "f"
  end%char.

Definition chr_quote : ascii := "'"%char.
Definition chr_dquote : ascii := """"%char.
Definition chr_backslash : ascii := "\"%char.

(** one character inside a quoted string, [q] being the quote in use *)
Definition repr_char (q : ascii) (c : ascii) : string :=
  if Ascii.eqb c q || Ascii.eqb c chr_backslash then String chr_backslash (String c "")
  else
    let n := nat_of_ascii c in
    if Nat.eqb n 10 then "\n"
    else if Nat.eqb n 13 then "\r"
    else if Nat.eqb n 9 then "\t"
    else if Nat.ltb n 32 || Nat.leb 127 n then
      String chr_backslash (String "x"%char
        (String (hex_digit (n / 16)) (String (hex_digit (n mod 16)) "")))
    else String c "".

Fixpoint str_contains (c : ascii) (s : string) : bool :=
  match s with
  | EmptyString => false
  | String d t => Ascii.eqb c d || str_contains c t
  end.

Fixpoint repr_chars (q : ascii) (s : string) : string :=
  match s with
  | EmptyString => ""
  | String c t => String.append (repr_char q c) (repr_chars q t)
  end.

(** single quotes, unless the text contains a single and no double quote *)
Definition repr_str (s : string) : string :=
  let q := if str_contains chr_quote s && negb (str_contains chr_dquote s)
           then chr_dquote else chr_quote in
  String q (String.append (repr_chars q s) (String q "")).

Definition repr_Z (z : Z) : string := NilZero.string_of_int (Z.to_int z).

(** separator-joined texts *)
Fixpoint join (sep : string) (l : list string) : string :=
  match l with
  | [] => ""
  | [x] => x
  | x :: t => String.append x (String.append sep (join sep t))
  end.

(** Python [repr(v)]; /repo/richard/entity/Variable.py 10-11 for variables
    (the bare name); frozen dataclasses print as [Name(field=...)]. *)
Fixpoint py_repr (v : value) : string :=
  match v with
  | VNone => "None"
  | VBool true => "True"
  | VBool false => "False"
  | VInt z => repr_Z z
  | VFloat q => String.append (repr_Z (Qnum (Qred q)))
                  (String.append "/" (repr_Z (Zpos (Qden (Qred q)))))
  | VStr s => repr_str s
  | VVar s => s
  | VReif s => String.append "ReifiedVariable(name=" (String.append (repr_str s) ")")
  | VTuple [] => "()"
  | VTuple [x] => String.append "(" (String.append (py_repr x) ",)")
  | VTuple l => String.append "(" (String.append (join ", " (map py_repr l)) ")")
  | VList l => String.append "[" (String.append (join ", " (map py_repr l)) "]")
  | VTmpl a b => String.append "SemanticTemplate(args=["
      (String.append (join ", " (map py_repr a)) (String.append "], body=["
        (String.append (join ", " (map py_repr b)) "])")))
  end.

(** Python [str(v)] *)
Definition py_str (v : value) : string :=
  match v with VStr s => s | _ => py_repr v end.

(** ** dicts from names to values *)

Definition binding : Type := list (string * value).

(** [b.get(k)] / [k in b] *)
Fixpoint bget (k : string) (b : binding) : option value :=
  match b with
  | [] => None
  | (k', v) :: t => if String.eqb k k' then Some v else bget k t
  end.

(** [b[k] = v]: in place when the key exists, else appended *)
Fixpoint bset (k : string) (v : value) (b : binding) : binding :=
  match b with
  | [] => [(k, v)]
  | (k', v') :: t => if String.eqb k k' then (k', v) :: t else (k', v') :: bset k v t
  end.

Definition keys (b : binding) : list string := map fst b.

Definition opt_eq (a b : option value) : bool :=
  match a, b with
  | None, None => true
  | Some x, Some y => py_eq x y
  | _, _ => false
  end.

(** [a == b] for dicts: every key of either is in both, with equal values *)
Definition dict_eq (a b : binding) : bool :=
  forallb (fun k => opt_eq (bget k a) (bget k b)) (keys a ++ keys b).

(** [r in l] for a list of dicts *)
Definition dict_in (r : binding) (l : list binding) : bool :=
  existsb (fun x => dict_eq r x) l.
