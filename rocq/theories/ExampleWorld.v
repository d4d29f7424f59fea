(** * Concrete models used in the examples beside the theorems *)

From Coq Require Import ZArith String List Bool.
From Verif Require Import Py Effects Solver CoreModule InferenceModule TableModule DatalogSpec DatalogProofs.
Import ListNotations.
Local Open Scope string_scope.
Local Open Scope list_scope.

(** rules and tables *)
Definition ex_tabs : Type := list (string * list (list value)).
Definition ex_world : Type := (rulebase * ex_tabs)%type.
Definition ex_lens : lens ex_world rulebase :=
  mkLens fst (fun rb w => (rb, snd w)).
Fixpoint ex_lookup (t : ex_tabs) (p : string) : option (list (list value)) :=
  match t with
  | [] => None
  | (k, rows) :: t' => if String.eqb p k then Some rows else ex_lookup t' p
  end.
Definition ex_tables (w : ex_world) (p : string) : option (list (list value)) :=
  ex_lookup (snd w) p.

(** core predicates, rules and tables *)
Definition ex_mods : list (modul ex_world) :=
  [core_module; inference_module ex_lens; table_module ex_tables].

(** a relation that answers with the same rows whatever it is asked *)
Definition fixed_module {W} (p : string) (out : list value) : modul W :=
  fun _ q => if String.eqb q p then Some (mkRel p [] (fun _ _ _ => ret (QRows out)) None) else None.

Definition V := VVar.
Definition S_ := VStr.
Definition A (p : string) (args : list value) : value := VTuple (VStr p :: args).

Definition family : ex_world :=
  (rulebase_of
     [ mkFRule (mkAtom "ancestor" [V "X"; V "Y"]) [mkAtom "parent" [V "X"; V "Y"]];
       mkFRule (mkAtom "ancestor" [V "X"; V "Z"])
               [mkAtom "parent" [V "X"; V "Y"]; mkAtom "ancestor" [V "Y"; V "Z"]] ],
   [ ("parent", [[S_ "ann"; S_ "bob"]; [S_ "bob"; S_ "cid"]; [S_ "ann"; S_ "dot"]]);
     ("age", [[S_ "ann"; VInt 70]; [S_ "bob"; VInt 45]]) ]).

(** the bindings of a result *)
Definition answers {W} (o : outcome sres * W) : option (list binding) :=
  match fst o with Ok (SList l) => Some l | _ => None end.
