(** * Properties C01-C09 and C12: the solver *)

From Coq Require Import ZArith String List Bool Lia Arith Ascii.
From Verif Require Import Py PyFacts ReprProofs Effects EffectsFacts Solver SolverSpec
  SolverProofs SolverProofs2 SolverProofs3 MatchProofs MatchProofs2 CoreModule InferenceModule TableModule
  ExampleWorld.
Import ListNotations.
Local Open Scope string_scope.
Local Open Scope list_scope.

(** ** C01 *)

Theorem C01_solve_keeps_bindings :
  forall (W : Type) (mods : list (modul W)) n atoms b w l w',
    solve mods n atoms b w = (Ok (SList l), w') ->
    forall r, In r l -> keeps_entries b r.
Proof. intros W mods n atoms b w l w' H r Hr. exact (solve_extends mods n atoms b w l w' H r Hr). Qed.
Print Assumptions C01_solve_keeps_bindings.

Example C01_example :
  answers (solve ex_mods 9 (VList [A "parent" [V "P"; V "Q"]; A "ancestor" [V "Q"; V "R"]])
             [("P", S_ "ann"); ("Other", VInt 3)] family)
  = Some [[("P", S_ "ann"); ("Other", VInt 3); ("Q", S_ "bob"); ("R", S_ "cid")]].
Proof. vm_compute. reflexivity. Qed.

(** ** C02 *)

Theorem C02_solutions_bind_only_query_variables :
  forall (W : Type) (mods : list (modul W)) n atoms b w l w',
    solve mods n atoms b w = (Ok (SList l), w') ->
    forall r, In r l -> forall x, bget x r <> None -> bget x b <> None \/ direct_var x atoms.
Proof. intros W mods n atoms b w l w' H r Hr x. exact (solve_domain mods n atoms b w l w' H r Hr x). Qed.
Print Assumptions C02_solutions_bind_only_query_variables.

(** [Y] is used inside the argument of [scoped] only and does not leak out *)
Example C02_example :
  answers (solve ex_mods 9 (VList [A "age" [V "X"; V "N"]; A "scoped" [VList [A "parent" [V "X"; V "Y"]]]]) [] family)
  = Some [[("X", S_ "ann"); ("N", VInt 70)]; [("X", S_ "bob"); ("N", VInt 45)]].
Proof. vm_compute. reflexivity. Qed.

(** ** C03 *)

(** a solution of one atom alone *)
Definition solution_of_atom {W} (mods : list (modul W)) (n : nat) (w : W)
    (a : value) (b b' : binding) : Prop :=
  exists l, solve mods n (VList [a]) b w = (Ok (SList l), w) /\ In b' l.

Theorem C03_conjunction_is_chaining :
  forall (W : Type) (mods : list (modul W)) n w atoms b l w',
    (** the atoms only read *)
    (forall a, In a atoms -> forall b, snd (solve mods n (VList [a]) b w) = w) ->
    solve mods n (VList atoms) b w = (Ok (SList l), w') ->
    (forall r, In r l -> chain (solution_of_atom mods n w) atoms b r) /\
    (forall r, chain (solution_of_atom mods n w) atoms b r -> mem r l).
Proof. intros W mods n w atoms b l w' Hp H. exact (proj2 (solve_chain mods n w atoms b l w' Hp H)). Qed.
Print Assumptions C03_conjunction_is_chaining.

(** one atom alone: its solutions and its exception, with the state it leaves
    (an iterator over no results at all counts as no solutions) *)
Definition atom_yields {W} (mods : list (modul W)) (n : nat) (a : value) (b : binding) (w : W)
    (l : list binding) (w' : W) : Prop :=
  solve mods n (VList [a]) b w = (Ok (SList l), w') \/
  (l = [] /\ exists s, solve mods n (VList [a]) b w = (Ok (SIter s 0), w')).
Definition atom_raises {W} (mods : list (modul W)) (n : nat) (a : value) (b : binding) (w : W)
    (e : exn) (w' : W) : Prop :=
  solve mods n (VList [a]) b w = (Exn e, w').

Theorem C03_effects_in_order :
  forall (W : Type) (mods : list (modul W)) n a1 a2 rest b w,
    let atoms := a1 :: a2 :: rest in
    (forall all kept w', runs (atom_yields mods n) atoms b w all w' -> different [] all kept ->
       solve mods n (VList atoms) b w = (Ok (SList kept), w')) /\
    (forall l w', solve mods n (VList atoms) b w = (Ok l, w') ->
       exists all kept, l = SList kept /\ runs (atom_yields mods n) atoms b w all w' /\ different [] all kept) /\
    (forall e w', runs_into (atom_yields mods n) (atom_raises mods n) atoms b w e w' ->
       solve mods n (VList atoms) b w = (Exn e, w')).
Proof.
  intros W mods n a1 a2 rest b w. exact (solve_runs mods n a1 a2 rest b w).
Qed.
Print Assumptions C03_effects_in_order.

Example C03_example :
  let mods := [fixed_module "p" [VList [VInt 1; VInt 2]; VList [VInt 3; VInt 4]];
               fixed_module "q" [VList [VInt 2; S_ "a"]; VList [VInt 2; S_ "b"]; VList [VInt 9; S_ "c"]]] in
  let atoms := [A "p" [VInt 1; V "Y"]; A "q" [VInt 2; V "Z"]] in
  (forall a, In a atoms -> forall b, snd (solve mods 1 (VList [a]) b tt) = tt) /\
  answers (solve mods 1 (VList atoms) [] tt)
  = Some [[("Y", VInt 2); ("Z", S_ "a")]; [("Y", VInt 2); ("Z", S_ "b")]].
Proof. split; [|vm_compute; reflexivity]. intros a _ b. now destruct (snd _). Qed.

(** a module that notes each of its calls: it is called once for each different
    row of [p] *)
Definition notes : modul (list value) := fun _ q =>
  if String.eqb q "note" then
    Some (mkRel "note" [] (fun _ vals _ => bind get (fun w => bind (put (w ++ vals)) (fun _ => ret (QRows [VList [VNone]])))) None)
  else if String.eqb q "p" then
    Some (mkRel "p" [] (fun _ _ _ => ret (QRows [VList [VInt 1]; VList [VInt 2]; VList [VInt 1]])) None)
  else None.
Example C03_effects_example :
  let atoms := [A "p" [V "X"]; A "note" [V "X"]; A "note" [S_ "done"]] in
  solve [notes] 1 (VList atoms) [] [VInt 0]
  = (Ok (SList [[("X", VInt 1)]; [("X", VInt 2)]]),
     [VInt 0; VInt 1; S_ "done"; VInt 2; S_ "done"]) /\
  runs_into (atom_yields [notes] 1) (atom_raises [notes] 1) [A "p" [V "X"]; A "note" [V "X"]; A "gone" []] [] []
    (Raise "No relation called 'gone' available in the model") [VInt 1].
Proof.
  split; [vm_compute; reflexivity|].
  eapply into_later with (done := []); [left; vm_compute; reflexivity|constructor|].
  eapply into_later with (done := []); [left; vm_compute; reflexivity|constructor|].
  apply into_first. vm_compute. reflexivity.
Qed.

(** ** C04 *)

Theorem C04_no_duplicate_solutions :
  forall (W : Type) (mods : list (modul W)) n a1 a2 rest b w l w',
    solve mods n (VList (a1 :: a2 :: rest)) b w = (Ok (SList l), w') -> no_duplicates l.
Proof. intros W mods n a1 a2 rest b w l w'. exact (solve_no_duplicates mods n a1 a2 rest b w l w'). Qed.
Print Assumptions C04_no_duplicate_solutions.

(** both rows of [p] lead to the same solution *)
Example C04_example :
  answers (solve [fixed_module "p" [VList [VInt 1; VInt 5]; VList [VInt 2; VInt 5]];
                  fixed_module "q" [VList [VInt 6]]]
             1 (VList [A "p" [V "X"; V "Y"]; A "q" [V "Z"]]) [("X", VInt 1)] tt)
  = Some [[("X", VInt 1); ("Y", VInt 5); ("Z", VInt 6)]].
Proof. vm_compute. reflexivity. Qed.

(** for a single atom duplicates are possible: [X] is bound, so the rows
    that differ only there give the same solution twice *)
Theorem C04_single_atom_duplicates_refuted :
  exists (mods : list (modul unit)) b l,
    answers (solve mods 1 (VList [A "p" [V "X"; V "Y"]]) b tt) = Some l /\ ~ no_duplicates l.
Proof.
  exists [fixed_module "p" [VList [VInt 1; VInt 5]; VList [VInt 2; VInt 5]]], [("X", VInt 1)].
  eexists. split; [vm_compute; reflexivity|].
  intros H. specialize (H 0 1 _ _ ltac:(discriminate) eq_refl eq_refl). vm_compute in H. discriminate.
Qed.
Print Assumptions C04_single_atom_duplicates_refuted.

(** ** C05 *)

Theorem C05_single_atom_is_unification :
  forall (W : Type) (mods : list (modul W)) n p args b vals w outs w',
    p <> "$disjunction" -> find_relations mods w p <> [] ->
    Forall2 (received b) args vals ->
    (** the relations named [p] answer with the rows [outs] *)
    queries_return (solver_at mods n) vals args b (find_relations mods w p) w outs w' ->
    good_rows (length args) outs ->
    exists l, solve mods (S n) (VList [VTuple (VStr p :: args)]) b w = (Ok (SList l), w') /\
      forall r, mem r l <-> exists row, In (VList row) outs /\ row_fits b args row r.
Proof.
  intros W mods n p args b vals w outs w' Hp Hf Hv Hq Hg.
  apply received_unique in Hv. subst vals.
  exact (single_atom_matching mods n p args b w outs w' Hp Hf Hq Hg).
Qed.
Print Assumptions C05_single_atom_is_unification.

(** a repeated variable, a constant and a [None] in the row *)
Example C05_example :
  answers (solve [fixed_module "p" [VList [VInt 1; VInt 1; S_ "c"]; VList [VInt 1; VInt 2; S_ "c"];
                                    VList [VInt 3; VInt 3; VNone]; VList [VInt 4; VInt 4; S_ "d"]]]
             1 (VList [A "p" [V "X"; V "X"; S_ "c"]]) [] tt)
  = Some [[("X", VInt 1)]; [("X", VInt 3)]].
Proof. vm_compute. reflexivity. Qed.

(** ** C06 *)

Theorem C06_query_functions_receive_the_bound_values :
  forall (W : Type) (mods : list (modul W)) n p args b w rel,
    p <> "$disjunction" -> find_relations mods w p = [rel] ->
    exists vals, Forall2 (received b) args vals /\
      let call := r_query rel (solver_at mods n) vals (mkCtx (r_pred rel) (r_cols rel) args b) w in
      let solved := solve mods (S n) (VList [VTuple (VStr p :: args)]) b w in
      snd solved = snd call /\ (forall e, fst call = Exn e -> fst solved = Exn e).
Proof. intros W mods n p args b w rel Hp Hr. exact (query_receives mods n p args b w rel Hp Hr). Qed.
Print Assumptions C06_query_functions_receive_the_bound_values.

(** a relation that records what it receives *)
Definition spy : modul (list (list value)) := fun _ q =>
  if String.eqb q "spy" then
    Some (mkRel "spy" [] (fun _ vals _ => bind get (fun w => bind (put (vals :: w)) (fun _ => ret (QRows [])))) None)
  else None.

Example C06_example :
  snd (solve [spy] 1 (VList [A "spy" [V "X"; V "Y"; VInt 7; VList [V "X"]]]) [("X", S_ "x")] [])
  = [[S_ "x"; VNone; VInt 7; VList [V "X"]]].
Proof. vm_compute. reflexivity. Qed.

(** ** C07 *)

(** the rows of the modules that define [p], in module order; the modules
    only read *)
Inductive rows_of_modules {W} (sv : solver_if W) (p : string) (vals args : list value) (b : binding) (w : W)
  : list (modul W) -> list value -> Prop :=
| rm_nil : rows_of_modules sv p vals args b w [] []
| rm_other (m : modul W) ms rest : m w p = None -> rows_of_modules sv p vals args b w ms rest ->
    rows_of_modules sv p vals args b w (m :: ms) rest
| rm_rows (m : modul W) ms rel rows rest : m w p = Some rel ->
    r_query rel sv vals (mkCtx (r_pred rel) (r_cols rel) args b) w = (Ok (QRows rows), w) ->
    rows_of_modules sv p vals args b w ms rest ->
    rows_of_modules sv p vals args b w (m :: ms) (rows ++ rest).

Lemma rows_of_modules_queries {W} sv p vals args b (w : W) ms outs :
  rows_of_modules sv p vals args b w ms outs ->
  queries_return sv vals args b (find_relations_in ms w p) w outs w.
Proof.
  induction 1; simpl.
  - constructor.
  - now rewrite H.
  - rewrite H. econstructor; eauto.
Qed.

Theorem C07_union_of_the_modules_in_order :
  forall (W : Type) (mods : list (modul W)) n p args b vals w outs kept,
    p <> "$disjunction" -> (exists m, In m mods /\ m w p <> None) ->
    Forall2 (received b) args vals ->
    rows_of_modules (solver_at mods n) p vals args b w mods outs ->
    good_rows (length args) outs ->
    firsts [] outs kept ->
    exists l, solve mods (S n) (VList [VTuple (VStr p :: args)]) b w = (Ok (SList l), w) /\
      images (fun v r => exists row, v = VList row /\ row_fits b args row r) kept l.
Proof.
  intros W mods n p args b vals w outs kept Hp (m & Hm & Hd) Hv Hq Hg Hk.
  apply (single_atom_ordered mods n p args b vals w outs kept w); auto.
  - unfold find_relations. clear -Hm Hd. induction mods as [|m' ms IH]; [destruct Hm|]. simpl.
    destruct (m' w p) eqn:E; [discriminate|]. apply IH. destruct Hm as [->|]; [congruence|auto].
  - now apply rows_of_modules_queries.
Qed.
Print Assumptions C07_union_of_the_modules_in_order.

Example C07_example :
  answers (solve [fixed_module "p" [VList [VInt 2]; VList [VInt 1]];
                  fixed_module "p" [VList [VInt 1]; VList [VInt 3]; VList [VInt 2]]]
             1 (VList [A "p" [V "X"]]) [] tt)
  = Some [[("X", VInt 2)]; [("X", VInt 1)]; [("X", VInt 3)]].
Proof. vm_compute. reflexivity. Qed.

Theorem C07_undefined_predicate_raises :
  forall (W : Type) (mods : list (modul W)) n p args b w,
    p <> "$disjunction" -> (forall m, In m mods -> m w p = None) ->
    solve mods (S n) (VList [VTuple (VStr p :: args)]) b w =
      (Exn (Raise ("No relation called '" ++ p ++ "' available in the model")%string), w).
Proof. intros W mods n p args b w Hp Hm. exact (solve_unknown_predicate mods n p args [] b w Hp Hm). Qed.
Print Assumptions C07_undefined_predicate_raises.

(** ** C08 *)

Theorem C08_same_text_same_row :
  forall row1 row2, is_data (VList row1) = true -> is_data (VList row2) = true ->
    py_str (VList row1) = py_str (VList row2) -> row1 = row2.
Proof. intros r1 r2 H1 H2 E. pose proof (repr_injective (VList r1) (VList r2) H1 H2 E). congruence. Qed.
Print Assumptions C08_same_text_same_row.

(** quotes, separators and escapes do not confuse it *)
Example C08_example :
  is_data (VList [S_ "a', 'b"; VTuple [VInt (-1)]; VBool true]) = true /\
  py_str (VList [S_ "a', 'b"]) <> py_str (VList [S_ "a"; S_ "b"]).
Proof. split; [reflexivity|]. vm_compute. discriminate. Qed.

Definition printable (c : ascii) : Prop := 32 <= nat_of_ascii c <= 126.

Lemma repr_char_printable q c d : printable q -> In d (list_ascii_of_string (repr_char q c)) -> printable d.
Proof.
  intros Hq. unfold repr_char.
  assert (B : printable chr_backslash) by (split; vm_compute; lia).
  assert (Hx : forall n, printable (hex_digit n)).
  { intros n. do 16 (destruct n as [|n]; [split; vm_compute; lia|]). split; vm_compute; lia. }
  destruct (Ascii.eqb_spec c q) as [->|]; [intros [<-|[<-|[]]]; assumption|].
  destruct (Ascii.eqb_spec c chr_backslash) as [->|]; [intros [<-|[<-|[]]]; assumption|].
  cbn [orb].
  destruct (Nat.eqb _ 10); [intros [<-|[<-|[]]]; split; vm_compute; lia|].
  destruct (Nat.eqb _ 13); [intros [<-|[<-|[]]]; split; vm_compute; lia|].
  destruct (Nat.eqb _ 9); [intros [<-|[<-|[]]]; split; vm_compute; lia|].
  destruct (Nat.ltb_spec (nat_of_ascii c) 32); [cbn [orb]|destruct (Nat.leb_spec 127 (nat_of_ascii c)); cbn [orb]].
  1,2: intros [<-|[<-|[<-|[<-|[]]]]]; auto; split; vm_compute; lia.
  intros [<-|[]]. split; lia.
Qed.
Lemma la_app a b : list_ascii_of_string (a ++ b)%string = list_ascii_of_string a ++ list_ascii_of_string b.
Proof. induction a as [|c a IH]; [reflexivity|]. cbn. now rewrite <- IH. Qed.
Lemma repr_chars_printable q s d : printable q -> In d (list_ascii_of_string (repr_chars q s)) -> printable d.
Proof.
  intros Hq. induction s as [|c s IH]; intros H; [destruct H|]. cbn [repr_chars] in H. rewrite la_app in H.
  apply in_app_or in H as [H|H]; [eapply repr_char_printable; eauto|auto].
Qed.

(** the text of an ASCII string has only printable characters, and plain text is
    shown as it is *)
Theorem C08_text_of_a_string :
  (forall s c, (forall d, In d (list_ascii_of_string s) -> nat_of_ascii d < 128) -> In c (list_ascii_of_string (py_str (VList [VStr s]))) -> printable c) /\
  (forall s, (forall c, In c (list_ascii_of_string s) -> printable c /\ c <> "'"%char /\ c <> "\"%char) ->
     py_str (VList [VStr s]) = ("['" ++ s ++ "']")%string).
Proof.
  split.
  - intros s c _ H. change (py_str (VList [VStr s])) with ("[" ++ repr_str s ++ "]")%string in H.
    assert (Q : forall q, q = chr_quote \/ q = chr_dquote -> printable q) by (intros q [->| ->]; split; vm_compute; lia).
    unfold repr_str in H. set (q := if str_contains chr_quote s && negb (str_contains chr_dquote s) then chr_dquote else chr_quote) in H.
    assert (Hq : printable q) by (apply Q; unfold q; destruct (_ && _); auto).
    rewrite la_app in H. apply in_app_or in H as [[<-|[]]|H]; [split; vm_compute; lia|].
    rewrite la_app in H. apply in_app_or in H as [H|[<-|[]]]; [|split; vm_compute; lia].
    destruct H as [<-|H]; [exact Hq|]. fold list_ascii_of_string in H. rewrite la_app in H. apply in_app_or in H as [H|[<-|[]]]; [|exact Hq].
    eapply repr_chars_printable; eauto.
  - intros s Hs. change (py_str (VList [VStr s])) with ("[" ++ repr_str s ++ "]")%string.
    assert (Hn : str_contains chr_quote s = false).
    { induction s as [|c s IH]; [reflexivity|]. cbn [str_contains]. rewrite IH by (intros d Hd; apply Hs; now right).
      destruct (Ascii.eqb_spec chr_quote c) as [<-|]; [|reflexivity]. destruct (Hs chr_quote (or_introl eq_refl)) as (_ & H & _). now destruct H. }
    unfold repr_str. rewrite Hn. cbn [andb].
    assert (E : repr_chars chr_quote s = s); [|rewrite E; cbn; f_equal; f_equal; clear; induction s as [|c s IH]; [reflexivity|cbn; now rewrite IH]].
    clear Hn. induction s as [|c s IH]; [reflexivity|]. cbn [repr_chars]. rewrite IH by (intros d Hd; apply Hs; now right).
    destruct (Hs c (or_introl eq_refl)) as ((H1 & H2) & H3 & H4). unfold repr_char.
    destruct (Ascii.eqb_spec c chr_quote) as [->|]; [destruct (H3 eq_refl)|]. destruct (Ascii.eqb_spec c chr_backslash) as [->|]; [destruct (H4 eq_refl)|]. cbn [orb].
    destruct (Nat.eqb_spec (nat_of_ascii c) 10); [lia|]. destruct (Nat.eqb_spec (nat_of_ascii c) 13); [lia|]. destruct (Nat.eqb_spec (nat_of_ascii c) 9); [lia|].
    destruct (Nat.ltb_spec (nat_of_ascii c) 32); [lia|]. destruct (Nat.leb_spec 127 (nat_of_ascii c)); [lia|]. reflexivity.
Qed.
Print Assumptions C08_text_of_a_string.

Example C08_text_example : py_str (VList [S_ "it's"]) = ("[""it's""]")%string /\ py_str (VList [S_ (String (ascii_of_nat 127) "")]) = "['\x7f']".
Proof. split; reflexivity. Qed.

(** different rows that contain variables can have the same text, and one
    of them is then lost *)
Theorem C08_variables_collide_refuted :
  exists row1 row2, row1 <> row2 /\ py_str (VList row1) = py_str (VList row2) /\
    answers (solve [fixed_module "p" [VList row1; VList row2]] 1 (VList [A "p" [V "X"]]) [] tt)
    = Some [[("X", nth 0 row1 VNone)]].
Proof. exists [VVar "None"], [VNone]. split; [discriminate|]. split; vm_compute; reflexivity. Qed.
Print Assumptions C08_variables_collide_refuted.

(** ** C09 *)

(** what one alternative answers on its own *)
Definition alternative_answers {W} (mods : list (modul W)) (n : nat) (b : binding)
    (d : value) (w : W) (rs : list binding) (w' : W) : Prop :=
  exists r, solve mods n d b w = (Ok r, w') /\
    (r = SList rs \/ (rs = [] /\ exists s, r = SIter s 0)).

Theorem C09_first_alternative_with_solutions :
  forall (W : Type) (mods : list (modul W)) n alts b w l w',
    solve mods (S n) (VList [A "$disjunction" [VList alts]]) b w = (Ok (SList l), w') ->
    first_success (alternative_answers mods n b) alts w l w'.
Proof. intros W mods n alts b w l w' H. exact (solve_disjunction_first mods n alts [] b w l w' H). Qed.
Print Assumptions C09_first_alternative_with_solutions.

(** the second alternative answers; the third, which would raise, is not run *)
Example C09_example :
  answers (solve ex_mods 9 (VList [A "$disjunction" [VList [VList [A "parent" [V "X"; VInt 0]];
             VList [A "parent" [V "X"; S_ "cid"]]; VList [A "undefined" []]]]]) [] family)
  = Some [[("X", S_ "bob")]].
Proof. vm_compute. reflexivity. Qed.

(** ** C12 *)

Theorem C12_not_a_list_raises :
  forall (W : Type) (mods : list (modul W)) n v b w,
    (forall l, v <> VList l) ->
    solve mods (S n) v b w = (Exn (Raise ("Solver can only solve lists of atoms, this is not a list: " ++ py_str v)%string), w).
Proof. intros W mods n v b w H. exact (solve_not_a_list mods n v b w H). Qed.
Print Assumptions C12_not_a_list_raises.

Theorem C12_unknown_predicate_raises :
  forall (W : Type) (mods : list (modul W)) n p args rest b w,
    p <> "$disjunction" -> (forall m, In m mods -> m w p = None) ->
    solve mods (S n) (VList (VTuple (VStr p :: args) :: rest)) b w =
      (Exn (Raise ("No relation called '" ++ p ++ "' available in the model")%string), w).
Proof. intros W mods n p args rest b w Hp Hm. exact (solve_unknown_predicate mods n p args rest b w Hp Hm). Qed.
Print Assumptions C12_unknown_predicate_raises.

(** only the first row is checked (see [C12_second_row_unchecked_refuted]) *)
Theorem C12_wrong_first_row_raises :
  forall (W : Type) (mods : list (modul W)) n p args b vals w row outs w',
    p <> "$disjunction" -> Forall2 (received b) args vals ->
    queries_return (solver_at mods n) vals args b (find_relations mods w p) w (row :: outs) w' ->
    (forall items, row = VList items -> length items <> length args ->
       solve mods (S n) (VList [VTuple (VStr p :: args)]) b w = (Exn (Raise "wrong number of arguments in the results"), w')) /\
    ((forall items, row <> VList items) ->
       solve mods (S n) (VList [VTuple (VStr p :: args)]) b w = (Exn (Raise "results should be lists"), w')).
Proof.
  intros W mods n p args b vals w row outs w' Hp Hv Hq.
  exact (wrong_row_raises mods n p args b vals w row outs w' Hp Hv Hq).
Qed.
Print Assumptions C12_wrong_first_row_raises.

Example C12_example :
  fst (solve [fixed_module "p" [VList [VInt 1; VInt 2]]] 1 (VList [A "p" [V "X"]]) [] tt)
  = Exn (Raise "wrong number of arguments in the results").
Proof. vm_compute. reflexivity. Qed.

(** a later row that is too long is used as if it were right *)
Theorem C12_second_row_unchecked_refuted :
  exists rows l, answers (solve [fixed_module "p" rows] 1 (VList [A "p" [V "X"]]) [] tt) = Some l /\
    l <> [] /\ exists row, In (VList row) rows /\ length row <> 1.
Proof.
  exists [VList [VInt 1]; VList [VInt 2; VInt 3]]. eexists. split; [vm_compute; reflexivity|].
  split; [discriminate|]. exists [VInt 2; VInt 3]. split; [simpl; auto|discriminate].
Qed.
Print Assumptions C12_second_row_unchecked_refuted.
