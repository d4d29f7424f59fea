(** * Specification: how patterns are written, and what they stand for *)

From Coq Require Import String Ascii List Bool Arith.
From Verif Require Import Py Lexer Regex.
Import ListNotations.
Local Open Scope string_scope.

(** what a character after a backslash stands for *)
Definition is_letter_or_digit (c : ascii) : Prop :=
  let n := nat_of_ascii c in 48 <= n <= 57 \/ 65 <= n <= 90 \/ 97 <= n <= 122.
Inductive escape : ascii -> citem -> Prop :=
| e_word : escape "w" IWord
| e_digit : escape "d" IDigit
| e_space : escape "s" ISpace
| e_not_word : escape "W" (INot IWord)
| e_not_digit : escape "D" (INot IDigit)
| e_not_space : escape "S" (INot ISpace)
| e_bell : escape "a" (IChar "007")
| e_tab : escape "t" (IChar "009")
| e_newline : escape "n" (IChar "010")
| e_vertical : escape "v" (IChar "011")
| e_form : escape "f" (IChar "012")
| e_return : escape "r" (IChar "013")
| e_itself c : ~ is_letter_or_digit c -> escape c (IChar c).

(** a character between brackets, as it is or after a backslash *)
Inductive lit : Type :=
| Plain (c : ascii)
| Escaped (c : ascii) (i : citem).
(** what stands between brackets, with the closing one *)
Inductive inside : Type :=
| CEnd
| CDash (l : lit)                         (** a dash just before the closing bracket *)
| CItem (l : lit) (rest : inside)
| CRange (a b : lit) (rest : inside).

Inductive quant : Type :=
| Once
| Many (lazy : bool)
| AtLeastOne (lazy : bool)
| AtMostOne (lazy : bool).

Inductive alts : Type :=
| One (p : pieces)
| Or (p : pieces) (a : alts)
with pieces : Type :=
| Nothing
| Piece (x : atom) (q : quant) (p : pieces)
with atom : Type :=
| AChar (c : ascii)
| AEscaped (c : ascii) (i : citem)
| ADot
| ADollar
| AClass (negated : bool) (l : inside)
| AGroup (captured : bool) (a : alts).

(** ** the text *)
Definition show_lit (l : lit) : string :=
  match l with Plain c => String c "" | Escaped c _ => String "\" (String c "") end.
Fixpoint show_inside (l : inside) : string :=
  match l with
  | CEnd => "]"
  | CDash a => append (show_lit a) "-]"
  | CItem a rest => append (show_lit a) (show_inside rest)
  | CRange a b rest => append (show_lit a) (append "-" (append (show_lit b) (show_inside rest)))
  end.
Definition question (lazy : bool) : string := if lazy then "?" else "".
Definition show_quant (q : quant) : string :=
  match q with
  | Once => ""
  | Many z => append "*" (question z)
  | AtLeastOne z => append "+" (question z)
  | AtMostOne z => append "?" (question z)
  end.
Fixpoint show_alts (a : alts) : string :=
  match a with
  | One p => show_pieces p
  | Or p a' => append (show_pieces p) (append "|" (show_alts a'))
  end
with show_pieces (p : pieces) : string :=
  match p with
  | Nothing => ""
  | Piece x q p' => append (show_atom x) (append (show_quant q) (show_pieces p'))
  end
with show_atom (x : atom) : string :=
  match x with
  | AChar c => String c ""
  | AEscaped c _ => String "\" (String c "")
  | ADot => "."
  | ADollar => "$"
  | AClass negated l => append (if negated then "[^" else "[") (show_inside l)
  | AGroup captured a => append (if captured then "(" else "(?:") (append (show_alts a) ")")
  end.

(** ** the meaning *)
Definition lit_item (l : lit) : citem := match l with Plain c => IChar c | Escaped _ i => i end.
Definition range_item (a b : citem) : citem := match a, b with IChar c, IChar d => IRange c d | _, _ => a end.
Fixpoint inside_items (l : inside) : list citem :=
  match l with
  | CEnd => []
  | CDash a => [lit_item a; IChar "-"]
  | CItem a rest => lit_item a :: inside_items rest
  | CRange a b rest => range_item (lit_item a) (lit_item b) :: inside_items rest
  end.
Definition times (q : quant) (r : re) : re :=
  match q with
  | Once => r
  | Many false => RStar r
  | Many true => RLazy r
  | AtLeastOne false => RSeq r (RStar r)
  | AtLeastOne true => RSeq r (RLazy r)
  | AtMostOne false => ROpt r
  | AtMostOne true => RAlt REmpty r
  end.
Fixpoint re_alts (a : alts) : re :=
  match a with
  | One p => re_pieces p
  | Or p a' => RAlt (re_pieces p) (re_alts a')
  end
with re_pieces (p : pieces) : re :=
  match p with
  | Nothing => REmpty
  | Piece x q Nothing => times q (re_atom x)
  | Piece x q p' => RSeq (times q (re_atom x)) (re_pieces p')
  end
with re_atom (x : atom) : re :=
  match x with
  | AChar c => RClass false [IChar c]
  | AEscaped _ i => RClass false [i]
  | ADot => RAny
  | ADollar => REnd
  | AClass negated l => RClass negated (inside_items l)
  | AGroup _ a => re_alts a
  end.

(** ** what may be written *)
Definition begins (c : ascii) (s : string) : Prop := exists s', s = String c s'.
(** between brackets [\b] is a backspace; a closing bracket can only come first *)
Definition good_lit (first : bool) (l : lit) : Prop :=
  match l with
  | Plain c => c <> "\"%char /\ (c = "]"%char -> first = true)
  | Escaped c i => (c = "b"%char /\ i = IChar "008") \/ escape c i
  end.
Fixpoint good_inside (first : bool) (l : inside) : Prop :=
  match l with
  | CEnd => first = false
  | CDash a => good_lit first a
  | CItem a rest => good_lit first a /\ good_inside false rest /\ ~ begins "-" (show_inside rest)
  | CRange a b rest => good_lit first a /\ good_lit false b /\ good_inside false rest /\
      exists c d, lit_item a = IChar c /\ lit_item b = IChar d /\ nat_of_ascii c <= nat_of_ascii d
  end.
Definition special : list ascii := ["."; "^"; "$"; "*"; "+"; "?"; "{"; "("; ")"; "["; "\"; "|"]%char.
Fixpoint good_alts (a : alts) : Prop :=
  match a with
  | One p => good_pieces p
  | Or p a' => good_pieces p /\ good_alts a'
  end
with good_pieces (p : pieces) : Prop :=
  match p with
  | Nothing => True
  | Piece x q p' => good_atom x /\ (x = ADollar -> q = Once) /\ good_pieces p'
  end
with good_atom (x : atom) : Prop :=
  match x with
  | AChar c => ~ In c special
  | AEscaped c i => escape c i
  | ADot | ADollar => True
  | AClass negated l => good_inside true l /\ (negated = false -> ~ begins "^" (show_inside l))
  | AGroup _ a => good_alts a
  end.

Scheme alts_ind' := Induction for alts Sort Prop
with pieces_ind' := Induction for pieces Sort Prop
with atom_ind' := Induction for atom Sort Prop.
Combined Scheme syntax_ind from alts_ind', pieces_ind', atom_ind'.
