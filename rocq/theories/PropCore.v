(** * Properties C16-C25: the core predicates *)

From Coq Require Import ZArith QArith String List Bool Lia Arith.
From Verif Require Import Py PyFacts ReprProofs Effects EffectsFacts Solver SolverSpec
  SolverProofs SolverProofs2 MatchProofs MatchProofs2 Atoms AtomsFacts CoreModule InferenceModule
  TableModule CoreSpec CoreProofs CoreProofs2 CoreProofs3 ExampleWorld OrderSpec OrderProofs.
Import ListNotations.
Local Close Scope Q_scope.
Local Open Scope nat_scope.
Local Open Scope string_scope.
Local Open Scope list_scope.

(** in the example model the core predicates are defined by the core module only *)
Ltac core_only := eexists; split; [reflexivity|]; intros m [<-|[<-|[]]]; reflexivity.

(** ** C16 *)

Theorem C16_all_is_universal :
  forall (W : Type) (mods : list (modul W)) n x range body b w rs es ents (solvable : value -> Prop),
    only_core mods w "all" ->
    (** the range has the solutions [rs], with the values [es] for [x], of
        which [ents] are the distinct ones *)
    solve mods n (VList range) b w = (Ok (SList rs), w) ->
    Forall2 (fun r e => bget x r = Some e) rs es ->
    Forall (fun e => hashable e = true /\ is_data e = true) es ->
    first_values [] es ents ->
    (** for each of them the body can be solved or not *)
    (forall e, In e ents -> exists r, solve mods n (VList body) (bset x e b) w = (Ok r, w) /\
       (solvable e <-> sres_len r <> 0)) ->
    exists l,
      solve mods (S n) (VList [VTuple [VStr "all"; VVar x; VList range; VList body]]) b w = (Ok (SList l), w) /\
      (l <> [] <-> es <> [] /\ forall e, In e ents -> solvable e) /\
      (l <> [] -> l = map (fun e => match bget x b with None => bset x e b | Some _ => b end) ents).
Proof.
  intros W mods n x range body b w rs es ents good H Hr He Hes Hk Hs.
  destruct (solve_all mods n x range body b w rs es ents good H Hr He Hes Hk Hs) as (l & Hl & H1 & H2).
  exists l. split; [exact Hl|].
  assert (D : Forall good ents \/ ~ Forall good ents).
  { clear -Hs. induction ents as [|e ents IH]; [left; constructor|].
    destruct IH as [IH|IH]; [intros; apply Hs; now right| |].
    - destruct (Hs e (or_introl eq_refl)) as (r & _ & Hg). destruct (sres_len r) eqn:E.
      + right. intros F. inversion F; subst. apply Hg; auto.
      + left. constructor; auto. apply Hg. discriminate.
    - right. intros F. apply IH. now inversion F. }
  assert (Em : map (fun e => set_unbound b x e b) ents =
               map (fun e => match bget x b with None => bset x e b | Some _ => b end) ents).
  { apply map_ext. intros e. unfold set_unbound. destruct (bget x b); auto. }
  rewrite Em in H1. split.
  - destruct D as [D|D].
    + rewrite (H1 D). split.
      * intros Hn. split; [|now apply Forall_forall]. intros ->. inversion Hk; subst. now apply Hn.
      * intros [Hn _]. destruct es as [|e es]; [congruence|]. inversion Hk; subst; [contradiction|discriminate].
    + rewrite (H2 D). split; [congruence|]. intros [_ F]. exfalso. apply D. now apply Forall_forall.
  - intros Hn. destruct D as [D|D]; [auto|]. rewrite (H2 D) in Hn. congruence.
Qed.
Print Assumptions C16_all_is_universal.

(** every parent has an age; not every parent is 70; the empty range fails *)
Example C16_example :
  only_core ex_mods family "all" /\
  answers (solve ex_mods 9 (VList [A "all" [V "X"; VList [A "parent" [V "X"; V "C"]]; VList [A "age" [V "X"; V "N"]]]]) [] family)
  = Some [[("X", S_ "ann")]; [("X", S_ "bob")]] /\
  answers (solve ex_mods 9 (VList [A "all" [V "X"; VList [A "parent" [V "X"; V "C"]]; VList [A "age" [V "X"; VInt 70]]]]) [] family)
  = Some [] /\
  answers (solve ex_mods 9 (VList [A "all" [V "X"; VList [A "parent" [V "X"; S_ "ann"]]; VList [A "age" [V "X"; V "N"]]]]) [] family)
  = Some [].
Proof. split; [core_only|]. vm_compute. auto. Qed.

(** a case that meets the hypotheses of the theorem *)
Example C16_applies :
  exists rs es ents, 
    solve ex_mods 5 (VList [A "parent" [V "X"; V "C"]]) [] family = (Ok (SList rs), family) /\
    Forall2 (fun r e => bget "X" r = Some e) rs es /\
    Forall (fun e => hashable e = true /\ is_data e = true) es /\
    first_values [] es ents /\ length es = 3 /\ length ents = 2 /\
    (forall e, In e ents -> exists r, solve ex_mods 5 (VList [A "age" [V "X"; V "N"]]) (bset "X" e []) family = (Ok r, family) /\
       (True <-> sres_len r <> 0)).
Proof.
  eexists _, [S_ "ann"; S_ "bob"; S_ "ann"], [S_ "ann"; S_ "bob"].
  split; [vm_compute; reflexivity|]. split; [repeat constructor|]. split; [repeat constructor|].
  split.
  { apply fv_new; [intros ? []|]. apply fv_new; [intros y [<-|[]]; reflexivity|].
    eapply fv_old; [right; left; reflexivity|reflexivity|]. constructor. }
  split; [reflexivity|]. split; [reflexivity|].
  intros e [<-|[<-|[]]]; eexists; (split; [vm_compute; reflexivity|]); split; auto; discriminate.
Qed.

(** ** C17 *)

(** [after] hands on exceptions and exhausted stack; the answer depends on
    the number of solutions of the body only *)
Theorem C17_not_none_scoped :
  forall (W : Type) (mods : list (modul W)) n p body b w,
    (p = "not" \/ p = "none" \/ p = "scoped") -> only_core mods w p ->
    solve mods (S n) (VList [VTuple [VStr p; VList body]]) b w =
    after (solve mods n (VList body) b w)
      (fun r => if Bool.eqb (Nat.eqb (sres_len r) 0) (String.eqb p "scoped") then [] else [b]).
Proof.
  intros W mods n p body b w [->|[->| ->]] H.
  - rewrite solve_not by assumption. unfold after. destruct (solve mods n (VList body) b w) as [[r|e|] w1]; auto.
    destruct (sres_len r); reflexivity.
  - rewrite solve_none by assumption. unfold after. destruct (solve mods n (VList body) b w) as [[r|e|] w1]; auto.
    destruct (sres_len r); reflexivity.
  - rewrite solve_scoped by assumption. unfold after. destruct (solve mods n (VList body) b w) as [[r|e|] w1]; auto.
    destruct (sres_len r); reflexivity.
Qed.
Print Assumptions C17_not_none_scoped.

Example C17_example :
  let q p who := answers (solve ex_mods 9 (VList [A p [VList [A "parent" [S_ who; V "Y"]]]]) [("Z", VInt 1)] family) in
  only_core ex_mods family "not" /\ only_core ex_mods family "none" /\ only_core ex_mods family "scoped" /\
  q "not" "ann" = Some [] /\ q "not" "cid" = Some [[("Z", VInt 1)]] /\
  q "none" "ann" = Some [] /\ q "none" "cid" = Some [[("Z", VInt 1)]] /\
  q "scoped" "ann" = Some [[("Z", VInt 1)]] /\ q "scoped" "cid" = Some [].
Proof. split; [core_only|]. split; [core_only|]. split; [core_only|]. vm_compute. repeat split. Qed.

(** ** C18 *)

Theorem C18_count :
  forall (W : Type) (mods : list (modul W)) n R body b w,
    only_core mods w "count" ->
    solve mods (S n) (VList [VTuple [VStr "count"; R; VList body]]) b w =
    after (solve mods n (VList body) b w)
      (fun r => put_result b R (VInt (Z.of_nat (sres_len r)))).
Proof. intros W mods n R body b w. apply solve_count. Qed.
Print Assumptions C18_count.

Theorem C18_determiners :
  forall (W : Type) (mods : list (modul W)) n p body k b w,
    In p ["det_equals"; "det_greater_than"; "det_less_than"] -> only_core mods w p ->
    solve mods (S n) (VList [VTuple [VStr p; VList body; VInt k]]) b w =
    after (solve mods n (VList body) b w)
      (fun r => let count := Z.of_nat (sres_len r) in
         if String.eqb p "det_equals" then if Z.eq_dec count k then [b] else []
         else if String.eqb p "det_greater_than" then if Z_lt_dec k count then [b] else []
         else if Z_lt_dec count k then [b] else []).
Proof.
  intros W mods n p body k b w Hp H.
  assert (Hlt : forall x y, Qlt_bool (inject_Z x) (inject_Z y) = if Z_lt_dec x y then true else false).
  { intros x y. destruct (Z_lt_dec x y).
    - apply Qlt_bool_iff. now rewrite <- Zlt_Qlt.
    - apply Qlt_bool_false. rewrite <- Zle_Qle. lia. }
  destruct Hp as [<-|[<-|[<-|[]]]].
  - rewrite (solve_det mods "det_equals" (fun a b => Some (py_eq a b))); auto; try discriminate.
    unfold after. destruct (solve mods n (VList body) b w) as [[r|e|] w1]; auto.
    simpl. destruct (Z.eq_dec _ k) as [E|E].
    + subst k. rewrite (proj2 (Qeq_bool_iff _ _)); reflexivity.
    + destruct (Qeq_bool _ _) eqn:Eq; auto. apply Qeq_bool_iff in Eq. apply inject_Z_eq in Eq. congruence.
  - rewrite (solve_det mods "det_greater_than" py_gt); auto; try discriminate.
    unfold after. destruct (solve mods n (VList body) b w) as [[r|e|] w1]; auto.
    simpl. rewrite Hlt. destruct (Z_lt_dec _ _); auto.
  - rewrite (solve_det mods "det_less_than" py_lt); auto; try discriminate.
    unfold after. destruct (solve mods n (VList body) b w) as [[r|e|] w1]; auto.
    simpl. rewrite Hlt. destruct (Z_lt_dec _ _); auto.
Qed.
Print Assumptions C18_determiners.

(** a relation that answers with a result iterator of 7 items *)
Definition iterator_module : modul ex_world := fun _ p =>
  if String.eqb p "many" then Some (mkRel p [] (fun _ _ _ => ret (QIter (S_ "ok") 7)) None) else None.

Example C18_example :
  only_core ex_mods family "count" /\ only_core ex_mods family "det_equals" /\
  answers (solve ex_mods 9 (VList [A "count" [V "N"; VList [A "parent" [V "X"; V "Y"]]]]) [] family) = Some [[("N", VInt 3)]] /\
  answers (solve (ex_mods ++ [iterator_module]) 9 (VList [A "count" [V "N"; VList [A "many" [V "X"]]]]) [] family) = Some [[("N", VInt 7)]] /\
  answers (solve ex_mods 9 (VList [A "det_equals" [VList [A "parent" [V "X"; V "Y"]]; VInt 3]]) [] family) = Some [[]] /\
  answers (solve ex_mods 9 (VList [A "det_greater_than" [VList [A "parent" [V "X"; V "Y"]]; VInt 3]]) [] family) = Some [] /\
  answers (solve ex_mods 9 (VList [A "det_less_than" [VList [A "parent" [V "X"; V "Y"]]; VInt 4]]) [] family) = Some [[]].
Proof. split; [core_only|]. split; [core_only|]. vm_compute. repeat split. Qed.

(** ** C19 *)

(** the element variable is bound to [None] in the result when it was unbound *)
Definition element_none (b : binding) (y : string) (r : binding) : binding :=
  match bget y b with Some _ => r | None => bset y VNone r end.

Theorem C19_sum :
  forall (W : Type) (mods : list (modul W)) n R y body b w rs w1 qs,
    only_core mods w "sum" -> (forall x, R = VVar x -> x <> y) ->
    solve mods n (VList body) b w = (Ok (SList rs), w1) ->
    (** the solutions have the numbers [qs] as value of [y] *)
    Forall2 (has_number y) rs qs ->
    exists v q, num_of v = Some q /\ (q == Qsum qs)%Q /\
      solve mods (S n) (VList [VTuple [VStr "sum"; R; VVar y; VList body]]) b w =
      (Ok (SList (map (element_none b y) (put_result b R v))), w1).
Proof. intros W mods n R y body b w rs w1 qs. apply solve_sum. Qed.
Print Assumptions C19_sum.

Theorem C19_sum_of_integers :
  forall (W : Type) (mods : list (modul W)) n R y body b w rs w1 zs,
    only_core mods w "sum" -> (forall x, R = VVar x -> x <> y) ->
    solve mods n (VList body) b w = (Ok (SList rs), w1) ->
    Forall2 (fun r z => bget y r = Some (VInt z)) rs zs ->
    solve mods (S n) (VList [VTuple [VStr "sum"; R; VVar y; VList body]]) b w =
    (Ok (SList (map (element_none b y) (put_result b R (VInt (fold_left Z.add zs 0%Z))))), w1).
Proof. intros W mods n R y body b w rs w1 zs. apply solve_sum_int. Qed.
Print Assumptions C19_sum_of_integers.

Theorem C19_avg :
  forall (W : Type) (mods : list (modul W)) n R y body b w rs w1 qs,
    only_core mods w "avg" -> (forall x, R = VVar x -> x <> y) ->
    solve mods n (VList body) b w = (Ok (SList rs), w1) ->
    Forall2 (has_number y) rs qs ->
    (rs = [] -> solve mods (S n) (VList [VTuple [VStr "avg"; R; VVar y; VList body]]) b w = (Ok (SList []), w1)) /\
    (rs <> [] -> exists q, (q == Qsum qs / inject_Z (Z.of_nat (length rs)))%Q /\
      solve mods (S n) (VList [VTuple [VStr "avg"; R; VVar y; VList body]]) b w =
      (Ok (SList (map (element_none b y) (put_result b R (VFloat q)))), w1)).
Proof.
  intros W mods n R y body b w rs w1 qs H HR Hb Hq. split.
  - intros ->. eapply solve_avg_empty; eauto.
  - intros Hn. eapply solve_avg; eauto.
Qed.
Print Assumptions C19_avg.

Theorem C19_percentage :
  forall (W : Type) (mods : list (modul W)) n R nom den b w rn w1 rd w2,
    only_core mods w "percentage" ->
    solve mods n (VList nom) b w = (Ok rn, w1) ->
    solve mods n (VList den) b w1 = (Ok rd, w2) ->
    (sres_len rd = 0 ->
       solve mods (S n) (VList [VTuple [VStr "percentage"; R; VList nom; VList den]]) b w = (Ok (SList []), w2)) /\
    (sres_len rd <> 0 ->
       exists q, (q == inject_Z (Z.of_nat (sres_len rn)) / inject_Z (Z.of_nat (sres_len rd)) * 100)%Q /\
       solve mods (S n) (VList [VTuple [VStr "percentage"; R; VList nom; VList den]]) b w =
       (Ok (SList (put_result b R (VFloat q))), w2)).
Proof. intros W mods n R nom den b w rn w1 rd w2. apply solve_percentage. Qed.
Print Assumptions C19_percentage.

Example C19_example :
  only_core ex_mods family "sum" /\ only_core ex_mods family "avg" /\ only_core ex_mods family "percentage" /\
  answers (solve ex_mods 9 (VList [A "sum" [V "T"; V "N"; VList [A "age" [V "X"; V "N"]]]]) [] family)
  = Some [[("T", VInt 115); ("N", VNone)]] /\
  answers (solve ex_mods 9 (VList [A "avg" [V "T"; V "N"; VList [A "age" [V "X"; V "N"]]]]) [] family)
  = Some [[("T", VFloat (115 # 2)); ("N", VNone)]] /\
  answers (solve ex_mods 9 (VList [A "avg" [V "T"; V "N"; VList [A "age" [S_ "cid"; V "N"]]]]) [] family) = Some [] /\
  answers (solve ex_mods 9 (VList [A "percentage" [V "T"; VList [A "age" [V "X"; V "N"]]; VList [A "parent" [V "X"; V "Y"]]]]) [] family)
  = Some [[("T", VFloat (200 # 3))]].
Proof. split; [core_only|]. split; [core_only|]. split; [core_only|]. vm_compute. repeat split. Qed.

(** ** C20 *)

(** [arg_min] takes the first of the solutions with the smallest value,
    [arg_max] of those with the greatest, for numbers and for texts *)
Theorem C20_first_optimum :
  forall (W : Type) (mods : list (modul W)) n (smallest : bool) (P : value -> Prop) x y body b w rs w1,
    let p := if smallest then "arg_min" else "arg_max" in
    let better := fun v v' => if smallest then py_lt v v' else py_lt v' v in
    (P = is_number \/ P = is_text) -> x <> y ->
    only_core mods w p ->
    solve mods n (VList body) b w = (Ok (SList rs), w1) ->
    (forall r, In r rs -> exists v, bget y r = Some v /\ P v) ->
    (forall r, In r rs -> bget x r <> None) ->
    (rs = [] ->
      solve mods (S n) (VList [VTuple [VStr p; VVar x; VVar y; VList body]]) b w = (Ok (SList []), w1)) /\
    (rs <> [] ->
      exists r e v, first_best better y rs r v /\ bget x r = Some e /\
      solve mods (S n) (VList [VTuple [VStr p; VVar x; VVar y; VList body]]) b w =
      (Ok (SList [set_unbound b y v (set_unbound b x e b)]), w1)).
Proof.
  intros W mods n smallest P x y body b w rs w1 p better HP Hxy H Hb Hv Hx.
  assert (HN : ~ P VNone) by (destruct HP; subst P; intros (q & Hq); discriminate).
  destruct smallest.
  - apply (solve_arg mods "arg_min" py_lt P); auto; try discriminate.
    destruct HP; subst P; [apply numbers_lt|apply texts_lt].
  - apply (solve_arg mods "arg_max" py_gt P); auto; try discriminate.
    destruct HP; subst P; [apply numbers_gt|apply texts_gt].
Qed.
Print Assumptions C20_first_optimum.

Definition scores : list (modul ex_world) :=
  [core_module; fixed_module "score" [VList [S_ "a"; VInt 5]; VList [S_ "b"; VInt 2]; VList [S_ "c"; VInt 9];
                                      VList [S_ "d"; VInt 2]; VList [S_ "e"; VInt 9]]].
Example C20_example :
  only_core scores family "arg_min" /\ only_core scores family "arg_max" /\
  answers (solve scores 9 (VList [A "arg_min" [V "E"; V "N"; VList [A "score" [V "E"; V "N"]]]]) [] family)
  = Some [[("E", S_ "b"); ("N", VInt 2)]] /\
  answers (solve scores 9 (VList [A "arg_max" [V "E"; V "N"; VList [A "score" [V "E"; V "N"]]]]) [] family)
  = Some [[("E", S_ "c"); ("N", VInt 9)]].
Proof.
  split; [eexists; split; [reflexivity|]; intros m [<-|[]]; reflexivity|].
  split; [eexists; split; [reflexivity|]; intros m [<-|[]]; reflexivity|]. vm_compute. auto.
Qed.

(** ** C21 *)

(** what one solution contributes, for a variable name or a list of names *)
Inductive contributes : value -> binding -> list value -> Prop :=
| con_value x r v : bget x r = Some v -> contributes (VStr x) r [v]
| con_unbound x r : bget x r = None -> contributes (VStr x) r []
| con_combination xs r vs :
    Forall2 (fun x v => bget x r = Some v \/ (bget x r = None /\ v = VNone)) xs vs ->
    contributes (VList (map VStr xs)) r [VList vs].

Lemma contributes_collected var r vs : contributes var r vs -> collected var r vs.
Proof.
  intros H. inversion H; subst; constructor; auto.
  clear H. induction H0; constructor; auto.
  destruct H as [->|[-> ->]]; reflexivity.
Qed.

Theorem C21_find_all :
  forall (W : Type) (mods : list (modul W)) n var body R b w rs w1 vss kept,
    only_core mods w "find_all" -> (forall x, var <> VVar x) ->
    solve mods n (VList body) b w = (Ok (SList rs), w1) ->
    Forall2 (contributes var) rs vss -> first_values [] (concat vss) kept ->
    solve mods (S n) (VList [VTuple [VStr "find_all"; var; VList body; R]]) b w =
    (Ok (SList (put_result b R (VList kept))), w1).
Proof.
  intros W mods n var body R b w rs w1 vss kept H Hv Hb Hc Hk.
  eapply solve_find_all; eauto.
  - destruct var; auto. exfalso; eapply Hv; eauto.
  - clear -Hc. induction Hc; constructor; auto using contributes_collected.
Qed.
Print Assumptions C21_find_all.

Theorem C21_find_one :
  forall (W : Type) (mods : list (modul W)) n var body R b w rs w1 vss kept,
    only_core mods w "find_one" -> (forall x, var <> VVar x) ->
    solve mods n (VList body) b w = (Ok (SList rs), w1) ->
    Forall2 (contributes var) rs vss -> first_values [] (concat vss) kept ->
    (kept = [] -> solve mods (S n) (VList [VTuple [VStr "find_one"; var; VList body; R]]) b w = (Ok (SList []), w1)) /\
    (forall v rest, kept = v :: rest -> v <> VNone ->
      solve mods (S n) (VList [VTuple [VStr "find_one"; var; VList body; R]]) b w =
      (Ok (SList (put_result b R v)), w1)).
Proof.
  intros W mods n var body R b w rs w1 vss kept H Hv Hb Hc Hk.
  eapply solve_find_one; eauto.
  - destruct var; auto. exfalso; eapply Hv; eauto.
  - clear -Hc. induction Hc; constructor; auto using contributes_collected.
Qed.
Print Assumptions C21_find_one.

Example C21_example :
  only_core ex_mods family "find_all" /\ only_core ex_mods family "find_one" /\
  answers (solve ex_mods 9 (VList [A "find_all" [S_ "X"; VList [A "parent" [V "X"; V "Y"]]; V "L"]]) [] family)
  = Some [[("L", VList [S_ "ann"; S_ "bob"])]] /\
  answers (solve ex_mods 9 (VList [A "find_all" [VList [S_ "Y"; S_ "X"]; VList [A "parent" [V "X"; V "Y"]]; V "L"]]) [] family)
  = Some [[("L", VList [VList [S_ "bob"; S_ "ann"]; VList [S_ "cid"; S_ "bob"]; VList [S_ "dot"; S_ "ann"]])]] /\
  answers (solve ex_mods 9 (VList [A "find_one" [S_ "Y"; VList [A "parent" [V "X"; V "Y"]]; V "L"]]) [] family)
  = Some [[("L", S_ "bob")]] /\
  answers (solve ex_mods 9 (VList [A "find_one" [S_ "Y"; VList [A "parent" [S_ "dot"; V "Y"]]; V "L"]]) [] family)
  = Some [].
Proof. split; [core_only|]. split; [core_only|]. vm_compute. repeat split. Qed.

(** ** C22 *)

Theorem C22_equals_decides :
  forall (W : Type) (mods : list (modul W)) n a1 a2 v1 v2 b w,
    only_core mods w "equals" ->
    received b a1 v1 -> received b a2 v2 -> v1 <> VNone -> v2 <> VNone ->
    exists l, solve mods (S n) (VList [VTuple [VStr "equals"; a1; a2]]) b w = (Ok (SList l), w) /\
      (same v1 v2 -> l = [b]) /\ (~ same v1 v2 -> l = []).
Proof.
  intros W mods n a1 a2 v1 v2 b w H R1 R2 N1 N2. exists (if py_eq v1 v2 then [b] else []).
  split; [now apply solve_equals|]. split; intros E.
  - apply eq_same in E. now rewrite E.
  - apply eq_not_same in E. now rewrite E.
Qed.
Print Assumptions C22_equals_decides.

Theorem C22_equals_binds :
  forall (W : Type) (mods : list (modul W)) n x a v b w,
    only_core mods w "equals" -> bget x b = None -> received b a v -> v <> VNone ->
    solve mods (S n) (VList [VTuple [VStr "equals"; VVar x; a]]) b w = (Ok (SList [bset x v b]), w) /\
    solve mods (S n) (VList [VTuple [VStr "equals"; a; VVar x]]) b w = (Ok (SList [bset x v b]), w).
Proof.
  intros W mods n x a v b w H Hx Hr Hn. split; [now apply solve_equals_left|now apply solve_equals_right].
Qed.
Print Assumptions C22_equals_binds.

(** exchanging the arguments changes nothing, whatever they are *)
Theorem C22_equals_symmetric :
  forall (W : Type) (mods : list (modul W)) n a1 a2 b w,
    only_core mods w "equals" ->
    (forall k v, bget k b = Some v -> v <> VNone) -> a1 <> VNone -> a2 <> VNone ->
    solve mods (S n) (VList [VTuple [VStr "equals"; a1; a2]]) b w =
    solve mods (S n) (VList [VTuple [VStr "equals"; a2; a1]]) b w.
Proof.
  intros W mods n a1 a2 b w H Hb N1 N2.
  assert (C : forall a, a <> VNone -> (exists x, a = VVar x /\ bget x b = None) \/
                        (exists v, received b a v /\ v <> VNone)).
  { intros a Ha. destruct a; try (right; eexists; split; [apply rec_const; discriminate|assumption]).
    destruct (bget name b) eqn:E; [right|left; eauto]. eexists; split; [eapply rec_bound; eauto|eauto]. }
  destruct (C a1 N1) as [(x & -> & Hx)|(v1 & R1 & V1)]; destruct (C a2 N2) as [(y & -> & Hy)|(v2 & R2 & V2)].
  - now rewrite !solve_equals_unbound by assumption.
  - erewrite solve_equals_left, solve_equals_right by eassumption. reflexivity.
  - erewrite solve_equals_left, solve_equals_right by eassumption. reflexivity.
  - erewrite !solve_equals by eassumption. now rewrite py_eq_sym.
Qed.
Print Assumptions C22_equals_symmetric.

Theorem C22_equals_unbound_raises :
  forall (W : Type) (mods : list (modul W)) n x y b w,
    only_core mods w "equals" -> bget x b = None -> bget y b = None ->
    solve mods (S n) (VList [VTuple [VStr "equals"; VVar x; VVar y]]) b w = (Exn (Raise "== is called with two variables"), w).
Proof. intros W mods n x y b w H Hx Hy. now apply solve_equals_unbound. Qed.
Print Assumptions C22_equals_unbound_raises.

(** what [<] decides is the strict order; what it does not decide is a TypeError *)
Theorem C22_order_of_values :
  forall (W : Type) (mods : list (modul W)) n a1 a2 v1 v2 b w,
    only_core mods w "less_than" -> only_core mods w "greater_than" ->
    received b a1 v1 -> received b a2 v2 -> v1 <> VNone -> v2 <> VNone ->
    let less := solve mods (S n) (VList [VTuple [VStr "less_than"; a1; a2]]) b w in
    let greater := solve mods (S n) (VList [VTuple [VStr "greater_than"; a1; a2]]) b w in
    (decided v1 v2 true -> less = (Ok (SList [b]), w)) /\ (decided v1 v2 false -> less = (Ok (SList []), w)) /\
    ((forall r, ~ decided v1 v2 r) -> less = (Exn TypeErr, w)) /\
    (decided v2 v1 true -> greater = (Ok (SList [b]), w)) /\ (decided v2 v1 false -> greater = (Ok (SList []), w)) /\
    ((forall r, ~ decided v2 v1 r) -> greater = (Exn TypeErr, w)).
Proof.
  intros W mods n a1 a2 v1 v2 b w H H' R1 R2 N1 N2 less greater. unfold less, greater.
  rewrite (solve_less_than mods n a1 a2 v1 v2), (solve_greater_than mods n a1 a2 v1 v2) by assumption.
  assert (E : forall v v' r, decided v v' r -> py_lt v v' = Some r) by (intros v v' r Hd; now apply decided_lt).
  assert (Nd : forall v v', (forall r, ~ decided v v' r) -> py_lt v v' = None).
  { intros v v' Hd. destruct (py_lt v v') as [r|] eqn:El; [|reflexivity]. destruct (Hd r). now apply decided_lt. }
  repeat split; intros Hd; first [rewrite (E _ _ _ Hd); reflexivity | rewrite (Nd _ _ Hd); reflexivity].
Qed.
Print Assumptions C22_order_of_values.

(** texts, sequences, and what cannot be compared *)
Example C22_order_example :
  decided (VStr "apple") (VStr "apply") true /\ decided (VStr "Zoo") (VStr "apple") true /\
  decided (VTuple [VInt 1; VStr "b"]) (VTuple [VBool true; VStr "a"; VNone]) false /\
  (forall r, ~ decided (VStr "1") (VInt 2) r) /\
  fst (solve ex_mods 9 (VList [A "less_than" [VStr "1"; VInt 2]]) [] family) = Exn TypeErr.
Proof.
  split; [|split; [|split; [|split]]].
  - apply decided_lt. reflexivity.
  - apply decided_lt. reflexivity.
  - apply decided_lt. reflexivity.
  - intros r H. apply decided_lt in H. discriminate.
  - vm_compute. reflexivity.
Qed.

(** numbers are compared by value *)
Theorem C22_order_of_numbers :
  forall (W : Type) (mods : list (modul W)) n a1 a2 v1 v2 q1 q2 b w,
    only_core mods w "less_than" -> only_core mods w "greater_than" ->
    received b a1 v1 -> received b a2 v2 -> num_of v1 = Some q1 -> num_of v2 = Some q2 ->
    (exists l, solve mods (S n) (VList [VTuple [VStr "less_than"; a1; a2]]) b w = (Ok (SList l), w) /\
       ((q1 < q2)%Q -> l = [b]) /\ (~ (q1 < q2)%Q -> l = [])) /\
    (exists l, solve mods (S n) (VList [VTuple [VStr "greater_than"; a1; a2]]) b w = (Ok (SList l), w) /\
       ((q2 < q1)%Q -> l = [b]) /\ (~ (q2 < q1)%Q -> l = [])).
Proof.
  intros W mods n a1 a2 v1 v2 q1 q2 b w H H' R1 R2 E1 E2.
  assert (N1 : v1 <> VNone) by (intros ->; discriminate).
  assert (N2 : v2 <> VNone) by (intros ->; discriminate).
  split.
  - rewrite (solve_less_than mods n a1 a2 v1 v2) by assumption. rewrite (py_lt_num v1 v2 q1 q2) by assumption.
    destruct (Qlt_bool q1 q2) eqn:E.
    + eexists; split; [reflexivity|split; auto]. apply Qlt_bool_iff in E. contradiction.
    + eexists; split; [reflexivity|split; auto]. intros F. apply Qlt_bool_iff in F. congruence.
  - rewrite (solve_greater_than mods n a1 a2 v1 v2) by assumption. rewrite (py_lt_num v2 v1 q2 q1) by assumption.
    destruct (Qlt_bool q2 q1) eqn:E.
    + eexists; split; [reflexivity|split; auto]. apply Qlt_bool_iff in E. contradiction.
    + eexists; split; [reflexivity|split; auto]. intros F. apply Qlt_bool_iff in F. congruence.
Qed.
Print Assumptions C22_order_of_numbers.

(** the message names the comparison and the first argument that is unbound *)
Theorem C22_order_unbound_raises :
  forall (W : Type) (mods : list (modul W)) p sign n a1 a2 v1 v2 b w,
    (p = "less_than" /\ sign = "<" \/ p = "greater_than" /\ sign = ">") -> only_core mods w p ->
    received b a1 v1 -> received b a2 v2 ->
    let result := solve mods (S n) (VList [VTuple [VStr p; a1; a2]]) b w in
    (v1 = VNone -> result = (Exn (Raise (append sign " first argument is unbound")), w)) /\
    (v1 <> VNone -> v2 = VNone -> result = (Exn (Raise (append sign " second argument is unbound")), w)).
Proof.
  intros W mods p sign n a1 a2 v1 v2 b w Hp H H1 H2 result. unfold result. split.
  - intros E. rewrite (solve_compare_unbound mods p sign n a1 a2 v1 v2) by auto. now rewrite E.
  - intros N E. rewrite (solve_compare_unbound mods p sign n a1 a2 v1 v2) by auto. destruct v1; try reflexivity. congruence.
Qed.
Print Assumptions C22_order_unbound_raises.

Example C22_example :
  let q p a c := answers (solve ex_mods 9 (VList [A p [a; c]]) [("Two", VInt 2)] family) in
  only_core ex_mods family "equals" /\ only_core ex_mods family "less_than" /\ only_core ex_mods family "greater_than" /\
  q "equals" (V "Two") (VInt 2) = Some [[("Two", VInt 2)]] /\ q "equals" (V "Two") (VInt 3) = Some [] /\
  q "equals" (V "X") (V "Two") = Some [[("Two", VInt 2); ("X", VInt 2)]] /\ q "equals" (V "X") (V "Y") = None /\
  q "less_than" (V "Two") (VInt 3) = Some [[("Two", VInt 2)]] /\ q "less_than" (V "Two") (VInt 2) = Some [] /\
  q "greater_than" (V "Two") (VInt 1) = Some [[("Two", VInt 2)]] /\ q "greater_than" (V "Two") (V "X") = None.
Proof. split; [core_only|]. split; [core_only|]. split; [core_only|]. vm_compute. repeat split. Qed.

(** ** C23 *)

(** whatever the number: with a bound variable as result argument the call
    gives back the input binding *)
Theorem C23_bound_result_not_checked :
  forall (W : Type) (mods : list (modul W)) n x u body b w r w1,
    only_core mods w "count" -> bget x b = Some u ->
    solve mods n (VList body) b w = (Ok r, w1) ->
    solve mods (S n) (VList [VTuple [VStr "count"; VVar x; VList body]]) b w = (Ok (SList [b]), w1).
Proof.
  intros W mods n x u body b w r w1 H Hx Hb. rewrite solve_count, Hb by assumption. simpl. now rewrite Hx.
Qed.
Print Assumptions C23_bound_result_not_checked.

Theorem C23_bound_let_not_checked :
  forall (W : Type) (mods : list (modul W)) n x u a v b w,
    only_core mods w "let" -> bget x b = Some u -> received b a v -> v <> VNone ->
    solve mods (S n) (VList [VTuple [VStr "let"; VVar x; a]]) b w = (Ok (SList [b]), w).
Proof.
  intros W mods n x u a v b w H Hx Hr Hn. erewrite solve_let by eassumption. simpl. now rewrite Hx.
Qed.
Print Assumptions C23_bound_let_not_checked.

Theorem C23_bound_multiply_not_checked :
  forall (W : Type) (mods : list (modul W)) n x u a1 a2 v1 v2 v b w,
    only_core mods w "multiply" -> bget x b = Some u ->
    received b a1 v1 -> received b a2 v2 -> py_mul v1 v2 = Some v ->
    solve mods (S n) (VList [VTuple [VStr "multiply"; a1; a2; VVar x]]) b w = (Ok (SList [b]), w).
Proof.
  intros W mods n x u a1 a2 v1 v2 v b w H Hx H1 H2 Hm. erewrite solve_multiply by eassumption. simpl. now rewrite Hx.
Qed.
Print Assumptions C23_bound_multiply_not_checked.

(** a constant is compared *)
Theorem C23_constant_result_is_checked :
  forall (W : Type) (mods : list (modul W)) n k body b w r w1,
    only_core mods w "count" ->
    solve mods n (VList body) b w = (Ok r, w1) ->
    solve mods (S n) (VList [VTuple [VStr "count"; VInt k; VList body]]) b w =
    (Ok (SList (if Z.eq_dec (Z.of_nat (sres_len r)) k then [b] else [])), w1).
Proof.
  intros W mods n k body b w r w1 H Hb. rewrite solve_count, Hb by assumption. simpl.
  destruct (Z.eq_dec (Z.of_nat (sres_len r)) k) as [<-|E].
  - rewrite (proj2 (Qeq_bool_iff _ _)); reflexivity.
  - destruct (Qeq_bool _ _) eqn:Eq; auto. apply Qeq_bool_iff in Eq. apply inject_Z_eq in Eq. congruence.
Qed.
Print Assumptions C23_constant_result_is_checked.

Theorem C23_multiply_computes :
  forall (W : Type) (mods : list (modul W)) n R a1 a2 z1 z2 b w,
    only_core mods w "multiply" -> received b a1 (VInt z1) -> received b a2 (VInt z2) ->
    solve mods (S n) (VList [VTuple [VStr "multiply"; a1; a2; R]]) b w =
    (Ok (SList (put_result b R (VInt (z1 * z2)%Z))), w).
Proof. intros W mods n R a1 a2 z1 z2 b w H H1 H2. eapply solve_multiply; eauto. Qed.
Print Assumptions C23_multiply_computes.

(** what else can be multiplied: fractions, and a text, tuple or list with a
    number of times *)
Inductive product_of : value -> value -> value -> Prop :=
| product_ints z1 z2 : product_of (VInt z1) (VInt z2) (VInt (z1 * z2)%Z)
| product_float_int p z q : (q == p * inject_Z z)%Q -> Qred q = q -> product_of (VFloat p) (VInt z) (VFloat q)
| product_int_float p z q : (q == inject_Z z * p)%Q -> Qred q = q -> product_of (VInt z) (VFloat p) (VFloat q)
| product_floats p1 p2 q : (q == p1 * p2)%Q -> Qred q = q -> product_of (VFloat p1) (VFloat p2) (VFloat q)
| product_text s k : product_of (VStr s) (VInt (Z.of_nat k)) (VStr (String.concat "" (repeat s k)))
| product_tuple l k : product_of (VTuple l) (VInt (Z.of_nat k)) (VTuple (concat (repeat l k)))
| product_list l k : product_of (VList l) (VInt (Z.of_nat k)) (VList (concat (repeat l k)))
| product_none_text s z : (z < 0)%Z -> product_of (VStr s) (VInt z) (VStr "")
| product_none_tuple l z : (z < 0)%Z -> product_of (VTuple l) (VInt z) (VTuple [])
| product_none_list l z : (z < 0)%Z -> product_of (VList l) (VInt z) (VList [])
| product_times v z u : (forall q, v <> VFloat q) -> product_of v (VInt z) u -> product_of (VInt z) v u
| product_truth_left t v u : product_of (VInt (if t : bool then 1 else 0)%Z) v u -> product_of (VBool t) v u
| product_truth_right t v u : product_of v (VInt (if t : bool then 1 else 0)%Z) u -> product_of v (VBool t) u.

Lemma text_repeated s k : str_repeat k s = String.concat "" (repeat s k).
Proof.
  induction k as [|k IH]; [reflexivity|]. cbn [str_repeat repeat]. rewrite IH. destruct k; cbn [repeat String.concat].
  - clear. induction s; cbn; congruence.
  - reflexivity.
Qed.
Lemma list_repeated {X} (l : list X) k : list_repeat k l = concat (repeat l k).
Proof. induction k as [|k IH]; [reflexivity|]. cbn. now rewrite IH. Qed.
Lemma red_unique p q : (q == p)%Q -> Qred q = q -> Qred p = q.
Proof. intros E H. rewrite <- H. symmetry. now apply Qred_complete. Qed.
Lemma mul_bool_left t v : py_mul (VBool t) v = py_mul (VInt (if t then 1 else 0)%Z) v.
Proof. unfold py_mul. cbn [int_of]. reflexivity. Qed.
Lemma mul_bool_right t v : py_mul v (VBool t) = py_mul v (VInt (if t then 1 else 0)%Z).
Proof. unfold py_mul. cbn [int_of]. destruct (int_of v); reflexivity. Qed.
Lemma neg_nat z : (z < 0)%Z -> Z.to_nat z = 0.
Proof. lia. Qed.
Lemma product_mul v1 v2 v : product_of v1 v2 v -> py_mul v1 v2 = Some v.
Proof.
  induction 1 as [z1 z2|p z q E H|p z q E H|p1 p2 q E H|s k|l k|l k|s z Hz|l z Hz|l z Hz|v z u Hv H IH|t v u H IH|t v u H IH];
    rewrite ?mul_bool_left, ?mul_bool_right; auto; unfold py_mul; cbn [int_of num_of seq_mul]; rewrite ?Nat2Z.id, ?text_repeated, ?list_repeated, ?neg_nat by assumption; auto.
  - now rewrite (red_unique _ q E H).
  - now rewrite (red_unique _ q E H).
  - now rewrite (red_unique _ q E H).
  - revert IH. unfold py_mul. cbn [int_of]. destruct v; cbn [int_of num_of seq_mul]; auto; try discriminate; try (rewrite Z.mul_comm; auto).
    exfalso. eapply Hv; reflexivity.
Qed.
Lemma qred_reduced q : Qred (Qred q) = Qred q.
Proof. apply Qred_complete, Qred_correct. Qed.
Lemma some_same {X} (a b : X) : Some a = Some b -> a = b.
Proof. congruence. Qed.
Lemma mul_product v1 v2 v : py_mul v1 v2 = Some v -> product_of v1 v2 v.
Proof.
  assert (Seq : forall s z u, seq_mul s z = Some u -> product_of s (VInt z) u).
  { intros s z u. destruct (Z_lt_le_dec z 0) as [Hz|Hz].
    - destruct s; cbn [seq_mul]; try discriminate; rewrite neg_nat by exact Hz; intros [= <-]; now constructor.
    - rewrite <- (Z2Nat.id z Hz). destruct s; cbn [seq_mul]; try discriminate; rewrite Nat2Z.id, ?text_repeated, ?list_repeated; intros [= <-]; constructor. }
  assert (Int : forall z v u, py_mul (VInt z) v = Some u -> product_of (VInt z) v u).
  { intros z w u. unfold py_mul. cbn [int_of]. destruct w as [|t|z2|q|s|s|s|l|l|a b]; cbn [int_of num_of seq_mul]; try discriminate; intros E.
    - injection E as <-. apply product_truth_right. constructor.
    - injection E as <-. constructor.
    - apply some_same in E. subst u. apply product_int_float; [apply Qred_correct|apply qred_reduced].
    - apply product_times; [discriminate|]. now apply Seq.
    - apply product_times; [discriminate|]. now apply Seq.
    - apply product_times; [discriminate|]. now apply Seq. }
  assert (Right : forall v z u, (forall t, v <> VBool t) -> (forall x, v <> VInt x) -> py_mul v (VInt z) = Some u -> product_of v (VInt z) u).
  { intros w z u N1 N2. unfold py_mul. destruct w as [|t|z2|q|s|s|s|l|l|a b]; cbn [int_of num_of]; try discriminate; intros E;
      try (exfalso; eapply N1; reflexivity); try (exfalso; eapply N2; reflexivity); try (now apply Seq).
    apply some_same in E. subst u. apply product_float_int; [apply Qred_correct|apply qred_reduced]. }
  intros E. destruct v1 as [|t|z1|q1|s|s|s|l|l|a b] eqn:E1;
    try (rewrite mul_bool_left in E; apply product_truth_left; now apply Int); try (now apply Int);
    (destruct v2 as [|t2|z2|q2|s2|s2|s2|l2|l2|a2 b2]; try discriminate E; try (now apply Right; [discriminate|discriminate|]);
     try (rewrite mul_bool_right in E; apply product_truth_right; now apply Right; [discriminate|discriminate|])).
  apply some_same in E. subst v. constructor; [apply Qred_correct|apply qred_reduced].
Qed.

(** The result of [multiply] is the product, and if there is none, it is a
    TypeError. *)
Theorem C23_multiply_computes_products :
  forall (W : Type) (mods : list (modul W)) n R a1 a2 v1 v2 b w,
    only_core mods w "multiply" -> received b a1 v1 -> received b a2 v2 ->
    (forall v, product_of v1 v2 v ->
      solve mods (S n) (VList [VTuple [VStr "multiply"; a1; a2; R]]) b w = (Ok (SList (put_result b R v)), w)) /\
    ((forall v, ~ product_of v1 v2 v) ->
      solve mods (S n) (VList [VTuple [VStr "multiply"; a1; a2; R]]) b w = (Exn TypeErr, w)).
Proof.
  intros W mods n R a1 a2 v1 v2 b w H H1 H2. split.
  - intros v P. eapply solve_multiply; eauto. now apply product_mul.
  - intros N. apply solve_multiply_fails with v1 v2; auto. destruct (py_mul v1 v2) as [v|] eqn:E; [|reflexivity].
    exfalso. now apply (N v), mul_product.
Qed.
Print Assumptions C23_multiply_computes_products.
Example C23_products_example :
  product_of (VFloat (1 # 2)) (VInt 3) (VFloat (3 # 2)) /\ product_of (VInt 2) (VStr "ab") (VStr "abab") /\ product_of (VList [VNone]) (VBool true) (VList [VNone]) /\
  (forall v, ~ product_of (VStr "a") (VStr "b") v).
Proof.
  split; [constructor; reflexivity|]. split; [apply product_times; [discriminate|]; apply (product_text "ab" 2)|].
  split; [apply product_truth_right; apply (product_list [VNone] 1)|]. intros v P. apply product_mul in P. discriminate.
Qed.

(** so replacing a variable by its value can change the answer *)
Theorem C23_substitution_refuted :
  exists (mods : list (modul ex_world)) n body x v b,
    bget x b = Some v /\
    answers (solve mods n (VList [A "count" [VVar x; VList body]]) b family) <>
    answers (solve mods n (VList [A "count" [v; VList body]]) b family).
Proof.
  exists ex_mods, 9, [A "parent" [V "P"; V "Q"]], "X", (VInt 5), [("X", VInt 5)].
  split; [reflexivity|]. vm_compute. discriminate.
Qed.
Print Assumptions C23_substitution_refuted.

Example C23_example :
  only_core ex_mods family "count" /\ only_core ex_mods family "let" /\ only_core ex_mods family "multiply" /\
  answers (solve ex_mods 9 (VList [A "count" [V "X"; VList [A "parent" [V "P"; V "Q"]]]]) [("X", VInt 5)] family)
  = Some [[("X", VInt 5)]] /\
  answers (solve ex_mods 9 (VList [A "count" [VInt 5; VList [A "parent" [V "P"; V "Q"]]]]) [("X", VInt 5)] family)
  = Some [] /\
  answers (solve ex_mods 9 (VList [A "let" [V "X"; VInt 4]]) [("X", VInt 5)] family) = Some [[("X", VInt 5)]] /\
  answers (solve ex_mods 9 (VList [A "multiply" [V "X"; VInt 4; V "Y"]]) [("X", VInt 5)] family)
  = Some [[("X", VInt 5); ("Y", VInt 20)]].
Proof. split; [core_only|]. split; [core_only|]. split; [core_only|]. vm_compute. repeat split. Qed.

(** ** C24 *)

Theorem C24_store_writes_the_bound_atoms :
  forall (W : Type) (mods : list (modul W)) n atoms atoms' b w w',
    only_core mods w "store" ->
    (** [atoms'] are [atoms] with the bound variables replaced *)
    Forall2 (substituted b) atoms atoms' ->
    (** running all their write functions in order leads from [w] to [w'] *)
    stores mods (solver_at mods n) atoms' w w' ->
    solve mods (S (S n)) (VList [VTuple [VStr "store"; VList atoms]]) b w = (Ok (SList [b]), w').
Proof. intros W mods n atoms atoms' b w w'. apply solve_store. Qed.
Print Assumptions C24_store_writes_the_bound_atoms.

(** when a write fails, the effects of the earlier ones stay *)
Theorem C24_store_no_rollback :
  forall (W : Type) (mods : list (modul W)) n atoms b w done bad rest w1 e w2,
    only_core mods w "store" ->
    Forall2 (substituted b) atoms (done ++ bad :: rest) ->
    stores mods (solver_at mods n) done w w1 ->
    write_atom mods (S n) bad w1 = (Exn e, w2) ->
    solve mods (S (S n)) (VList [VTuple [VStr "store"; VList atoms]]) b w = (Exn e, w2).
Proof. intros W mods n atoms b w done bad rest w1 e w2. apply solve_store_fails. Qed.
Print Assumptions C24_store_no_rollback.

(** a module that remembers what is written *)
Definition log_module (p : string) : modul (list value) := fun _ q =>
  if String.eqb q p
  then Some (mkRel p [] (fun _ _ _ => ret (QRows [])) (Some (fun _ args _ => fun w => (Ok tt, w ++ [VTuple (VStr p :: args)]))))
  else None.
Definition log_mods := [core_module; log_module "p"; log_module "q"; log_module "p"].

Example C24_example :
  only_core log_mods [] "store" /\
  solve log_mods 9 (VList [A "store" [VList [A "p" [V "X"; V "Y"]; A "q" [VList [V "X"]]]]]) [("X", VInt 1)] []
  = (Ok (SList [[("X", VInt 1)]]),
     [A "p" [VInt 1; V "Y"]; A "p" [VInt 1; V "Y"]; A "q" [VList [VInt 1]]]) /\
  solve log_mods 9 (VList [A "store" [VList [A "q" [V "X"]; A "nothing" []; A "p" []]]]) [("X", VInt 1)] []
  = (Exn (Raise "No relation called 'nothing' available in the model"), [A "q" [VInt 1]]).
Proof.
  split; [eexists; split; [reflexivity|]; intros m [<-|[<-|[<-|[]]]]; reflexivity|].
  vm_compute. repeat split.
Qed.

Example C24_applies :
  Forall2 (substituted [("X", VInt 1)]) [A "p" [V "X"; V "Y"]; A "q" [VList [V "X"]]]
    [A "p" [VInt 1; V "Y"]; A "q" [VList [VInt 1]]] /\
  stores log_mods (solver_at log_mods 7) [A "p" [VInt 1; V "Y"]; A "q" [VList [VInt 1]]] []
    [A "p" [VInt 1; V "Y"]; A "p" [VInt 1; V "Y"]; A "q" [VList [VInt 1]]].
Proof.
  split.
  - repeat (apply Forall2_cons; [exact (bind_substituted _ _)|]); apply Forall2_nil.
  - eapply st_cons.
    + exists (log_module "p"). split; [simpl; auto|discriminate].
    + simpl. eapply pf_cons; [reflexivity|]. eapply pf_cons; [reflexivity|]. apply pf_nil.
    + eapply st_cons; [| |apply st_nil].
      * exists (log_module "q"). split; [simpl; auto|discriminate].
      * simpl. eapply pf_cons; [reflexivity|]. apply pf_nil.
Qed.

(** ** C25 *)

(** [terms'] are the terms of the quoted atom with the bound variables
    replaced; the structure fits when it has the same length and each
    constant of it equals the term *)
Definition fits_structure (terms structure : list value) : Prop :=
  length terms = length structure /\
  forall i a s, nth_error terms i = Some a -> nth_error structure i = Some s ->
    (forall x, s <> VVar x) -> py_eq a s = true.

Lemma fits_structure_agrees terms structure : fits_structure terms structure <-> agrees terms structure.
Proof.
  split.
  - intros [Hl Hf]. revert structure Hl Hf. induction terms as [|a terms IH]; intros [|s structure] Hl Hf;
      simpl in Hl; try discriminate; [constructor|]. constructor.
    + destruct (is_var s) eqn:E; [destruct s; try discriminate; eauto|].
      right. apply (Hf 0 a s eq_refl eq_refl). intros x ->. discriminate.
    + apply IH; [congruence|]. intros i a' s' Ha Hs. apply (Hf (S i) a' s' Ha Hs).
  - induction 1 as [|a s terms structure Ha H [Hl Hf]]; (split; [simpl; auto|]).
    + intros [|i]; discriminate.
    + intros [|i] a' s' E1 E2 Hn; simpl in *; [|eapply Hf; eauto].
      injection E1 as <-. injection E2 as <-. destruct Ha as [(x & ->)|Ha]; auto. exfalso; eapply Hn; eauto.
Qed.

Theorem C25_destructure_recovers_terms :
  forall (W : Type) (mods : list (modul W)) n terms terms' structure b w,
    only_core mods w "destructure" ->
    Forall2 (substituted b) terms terms' -> fits_structure terms' structure ->
    exists l,
      solve mods (S n) (VList [VTuple (VStr "destructure" :: VList [VTuple terms] :: structure)]) b w
      = (Ok (SList l), w) /\ length l <= 1 /\
      (** matching the structure with the terms *)
      forall r, mem r l <-> row_fits b (VList [VTuple terms] :: structure) (VNone :: terms') r.
Proof.
  intros W mods n terms terms' structure b w H Hs Hf. apply fits_structure_agrees in Hf.
  now apply solve_destructure.
Qed.
Print Assumptions C25_destructure_recovers_terms.

(** on a mismatch the call succeeds with all its unbound variables bound to [None] *)
Theorem C25_destructure_mismatch_succeeds :
  forall (W : Type) (mods : list (modul W)) n terms terms' structure b w,
    only_core mods w "destructure" ->
    Forall2 (substituted b) terms terms' -> ~ fits_structure terms' structure ->
    exists r,
      solve mods (S n) (VList [VTuple (VStr "destructure" :: VList [VTuple terms] :: structure)]) b w
      = (Ok (SList [r]), w) /\
      (forall x, In (VVar x) structure -> bget x b = None -> bget x r = Some VNone) /\
      (forall k, ~ In (VVar k) structure \/ bget k b <> None -> bget k r = bget k b).
Proof.
  intros W mods n terms terms' structure b w H Hs Hf. rewrite fits_structure_agrees in Hf.
  exists (all_none b structure b). split; [now apply solve_destructure_mismatch with (terms' := terms')|].
  assert (G : forall args r,
    (forall x, In (VVar x) args -> bget x b = None -> bget x (all_none b args r) = Some VNone) /\
    (forall k, bget k r = Some VNone -> bget k (all_none b args r) = Some VNone) /\
    (forall k, ~ In (VVar k) args \/ bget k b <> None -> bget k (all_none b args r) = bget k r)).
  { induction args as [|a args IH]; intros r; [repeat split; auto; intros ? []|].
    destruct (is_var a) eqn:E.
    - destruct a; try discriminate. cbn [all_none]. unfold set_unbound.
      destruct (bget name b) eqn:Eb.
      + destruct (IH r) as (I1 & I2 & I3). repeat split; auto.
        * intros x [F|Hx] Hb; [injection F as ->; congruence|auto].
        * intros k [Hk|Hk]; apply I3; auto. left. intros F. apply Hk. now right.
      + destruct (IH (bset name VNone r)) as (I1 & I2 & I3). repeat split.
        * intros x [F|Hx] Hb; auto. injection F as ->. apply I2. apply bget_bset_same.
        * intros k Hk. apply I2. rewrite bget_bset. now destruct (String.eqb name k).
        * intros k Hk. rewrite I3.
          -- apply bget_bset_other. intros ->. destruct Hk as [Hk|Hk]; [apply Hk; now left|congruence].
          -- destruct Hk as [Hk|Hk]; auto. left. intros F. apply Hk. now right.
    - assert (Ea : all_none b (a :: args) r = all_none b args r) by (destruct a; auto; discriminate).
      rewrite Ea. destruct (IH r) as (I1 & I2 & I3). repeat split; auto.
      + intros x [->|Hx] Hb; [discriminate|auto].
      + intros k [Hk|Hk]; apply I3; auto. left. intros F. apply Hk. now right. }
  destruct (G structure b) as (G1 & _ & G3). auto.
Qed.
Print Assumptions C25_destructure_mismatch_succeeds.

Example C25_example :
  only_core ex_mods family "destructure" /\
  answers (solve ex_mods 9 (VList [A "destructure" [VList [A "likes" [V "X"; S_ "tea"]]; V "P"; V "A"; S_ "tea"]])
             [("X", S_ "ann")] family)
  = Some [[("X", S_ "ann"); ("P", S_ "likes"); ("A", S_ "ann")]] /\
  answers (solve ex_mods 9 (VList [A "destructure" [VList [A "likes" [V "X"; S_ "tea"]]; V "P"; V "A"; S_ "milk"]])
             [("X", S_ "ann")] family)
  = Some [[("X", S_ "ann"); ("P", VNone); ("A", VNone)]] /\
  Forall2 (substituted [("X", S_ "ann")]) [S_ "likes"; V "X"; S_ "tea"] [S_ "likes"; S_ "ann"; S_ "tea"].
Proof.
  split; [core_only|]. split; [vm_compute; reflexivity|]. split; [vm_compute; reflexivity|].
  repeat (apply Forall2_cons; [exact (bind_substituted _ _)|]); apply Forall2_nil.
Qed.
