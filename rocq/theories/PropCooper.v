(** * C103: a system that is taught facts and rules (tests/integration/cooper) *)

From Coq Require Import ZArith String List Bool Arith Lia.
From Verif Require Import Py Effects Memory Generator FragmentModel TalkModel SirModel Optimizer Regex RegexProofs2 Pipeline Solver Grammar Earley Composer Sql SqliteDataSource InferenceModule
  QuestionSystem CooperModel CooperSpec CooperProofs CooperProofs2 CooperProofs3 CooperProofs4.
Import ListNotations.
Local Open Scope nat_scope.
Local Open Scope string_scope.
Local Open Scope list_scope.

(** ** the answers *)

(** "X is a N", "X is A" ([v] is [true]), "X is not a N" and "X is not A" ([false]),
    for each thing with a name, each quality, each collection of facts and each
    collection of rules that does not go round in circles: the reply is the one that
    follows, and the question changes nothing *)
Theorem C103_answers_follow : forall w names aliases facts rules rank name e q E t1 t2 t3 t4 n v atoms,
  classroom w names aliases facts rules -> co_out w = [] -> well_founded_rules rules rank ->
  lower name = name -> is_named names aliases name e -> In q qualities -> NoDup [E; t1; t2; t3; t4] ->
  rank q true < n -> rank q false < n -> 4 <= n -> asks name q E t1 t2 t3 t4 v atoms ->
  exists r, run n atoms w = (Ok (VStr r), w) /\ reply_to facts rules e q v r /\ (forall r', reply_to facts rules e q v r' -> r' = r).
Proof.
  intros w names aliases facts rules rank name e q E t1 t2 t3 t4 n v atoms C Ho Hr Hl Hn Hq Hd H1 H2 H4 Ha.
  destruct (answered w names aliases facts rules rank C Hr name e q E t1 t2 t3 t4 Hl Hn Hq Hd n v atoms Ho H1 H2 H4 Ha) as (r & R & Hrep).
  exists r. split; [exact R|split; [exact Hrep|]]. intros r' H. exact (one_reply _ _ _ _ _ _ _ H Hrep).
Qed.
Print Assumptions C103_answers_follow.

(** ** the lessons *)

(** "X is a N" for a thing that has a name *)
Theorem C103_told : forall w names aliases facts rules n name e q E t,
  classroom w names aliases facts rules -> co_out w = [] -> lower name = name -> is_named names aliases name e -> In q qualities -> E <> t ->
  (forall x, In x [E; t] -> x <> "Atoms") ->
  exists w1, run (6 + n) (tells name q E t) w = (Ok (VStr "OK"), w1) /\ classroom w1 names aliases (tell e q true facts) rules /\ co_out w1 = [].
Proof. intros. now apply told_known. Qed.
Print Assumptions C103_told.
(** and for a thing that has not: it gets the name of the variable as its id *)
Theorem C103_told_of_a_new_thing : forall w names aliases facts rules n name q E t,
  classroom w names aliases facts rules -> co_out w = [] -> lower name = name -> (forall p, In p (names ++ aliases) -> fst p <> name) -> In q qualities -> E <> t ->
  (forall x, In x [E; t] -> x <> "Atoms") ->
  exists w1, run (6 + n) (tells name q E t) w = (Ok (VStr "OK"), w1) /\ classroom w1 (names ++ [(name, E)]) aliases (tell E q true facts) rules /\ co_out w1 = [] /\
    is_named (names ++ [(name, E)]) aliases name E.
Proof. intros. now apply told_new. Qed.
Print Assumptions C103_told_of_a_new_thing.
(** "no A is a B" and "As are Bs" *)
Theorem C103_learned : forall w names aliases facts rules n A B v E ta tb,
  classroom w names aliases facts rules -> co_out w = [] -> In A qualities -> In B qualities -> NoDup [E; ta; tb] -> (forall x, In x [E; ta; tb] -> ~ In x ["Head"; "Body"]) ->
  exists w1, run (6 + n) (learns A B v E ta tb) w = (Ok (VStr "OK"), w1) /\ classroom w1 names aliases facts (rules ++ [mkTaught B (Anyone E) v [A]]) /\ co_out w1 = [].
Proof. intros. now apply learned_rule. Qed.
Print Assumptions C103_learned.

(** what a lesson does to what follows *)
Lemma tell_all e q v facts q' e' v' : In (e', v') (tell e q v facts q') <->
  In (e', v') (facts q') \/ (q' = q /\ (e', v') = (e, v) /\ forall u, ~ In (e, u) (facts q)).
Proof.
  unfold tell. destruct (String.eqb_spec q' q) as [->|N]; [|split; [now left|intros [H|(H & _)]; [exact H|contradiction]]].
  destruct (existsb (fun f => String.eqb (fst f) e) (facts q)) eqn:Ex.
  - split; [now left|]. intros [H|(_ & _ & H)]; [exact H|]. apply existsb_exists in Ex as ((e0 & u) & Hu & E0). apply String.eqb_eq in E0. cbn in E0. subst. now apply H in Hu.
  - rewrite in_app_iff. cbn [In]. split.
    + intros [H|[H|[]]]; [now left|right]. split; [reflexivity|split; [now symmetry|]]. intros u Hu.
      assert (X : existsb (fun f => String.eqb (fst f) e) (facts q) = true) by (apply existsb_exists; exists (e, u); split; [exact Hu|apply String.eqb_refl]). congruence.
    + intros [H|(_ & H & _)]; [now left|right; left; now symmetry].
Qed.
(** what followed still follows; what was told follows, unless there was another fact
    about the thing and the quality: then nothing is changed *)
Theorem C103_what_a_lesson_adds : forall facts rules e q v,
  (forall e' q' v', follows facts rules e' q' v' -> follows (tell e q v facts) rules e' q' v') /\
  ((forall u, ~ In (e, u) (facts q)) -> follows (tell e q v facts) rules e q v) /\
  (forall u, In (e, u) (facts q) -> forall q', tell e q v facts q' = facts q').
Proof.
  intros facts rules e q v. split; [|split].
  - intros e' q' v' H. induction H as [q0 v0 H|r Hr Ha Hc IH]; [apply told, tell_all; now left|now apply concluded].
  - intros H. apply told, tell_all. right. auto.
  - intros u Hu q'. unfold tell. destruct (String.eqb_spec q' q) as [->|N]; [|reflexivity].
    assert (X : existsb (fun f => String.eqb (fst f) e) (facts q) = true) by (apply existsb_exists; exists (e, u); split; [exact Hu|apply String.eqb_refl]). now rewrite X.
Qed.
Print Assumptions C103_what_a_lesson_adds.

(** a name with a capital is not recognised, although the name is known: nothing is
    solved, so that the sentence has no reply *)
Theorem C103_capitals_refuted : forall w names aliases facts rules n name e E t1 t2 t3 t4 v q atoms,
  classroom w names aliases facts rules -> lower name <> name -> filter (fun p => String.eqb (fst p) (lower name)) names = [(lower name, e)] ->
  (forall p, In p aliases -> fst p <> name) -> asks name q E t1 t2 t3 t4 v atoms -> 1 <= n ->
  solve cooper_mods n (VList atoms) [] w = (Ok (SList []), w).
Proof. intros. eapply capitals_fail; eassumption. Qed.
Print Assumptions C103_capitals_refuted.

(** ** the dialogs of test.py *)
Definition lessons : list string := ["magnesium is a metal"; "magnesium burns rapidly"; "magnesium oxide is a white metallic oxide";
 "oxygen is a nonmetal"; "ferrous sulfide is a dark-gray compound that is brittle"; "iron is a metal"; "sulfur is a nonmetal";
 "gasoline is a fuel"; "gasoline is combustable"; "combustable things burn"; "fuels are combustable"; "ice is a solid"; "steam is a gas";
 "magnesium is an element"; "iron is an element"; "sulfur is an element"; "oxygen is an element"; "nitrogen is an element"; "hydrogen is an element"; "carbon is an element"; "copper is an element";
 "salt is a compound"; "sugar is a compound"; "water is a compound"; "sulfuric acid is a compound"; "elements are not compounds"; "salt is sodium chloride"; "sodium chloride is salt"; "oxides are compounds"; "metals are metallic"; "no metal is a nonmetal"; "dark-gray things are not white"; "a solid is not a gas"; "any thing that burns rapidly burns"].
Definition questions : list string := ["magnesium is a metal"; "magnesium is not a metal"; "magnesium is a nonmetal"; "magnesium is not a nonmetal"; "magnesium is a metal that burns rapidly"; "magnesium is magnesium"; "some oxides are white"; "no oxide is white"; "oxides are not white"; "magnesium oxide is an oxide"; "every oxide is an oxide"; "ferrous sulfide is dark-gray"; "ferrous sulfide is a brittle compound"; "ferrous sulfide is not brittle"; "some sulfides are brittle"; "ferrous sulfide is not a compound that is not dark-gray"; "anything that is not a compound is not ferrous sulfide"; "no dark-gray thing is a sulfide"; "ferrous sulfide is white"; "sodium chloride is a compound"; "salt is an element"; "sodium chloride is an element"; "gasoline is a fuel that burns"].

Definition teaching : world cooper := mkWorld (grammar_rules grammar1) 0 cooper_start.
Definition after_lessons : cooper := Eval vm_compute in sw_model (snd (dialog 2000 60 lessons teaching)).
Definition asking : world cooper := mkWorld (grammar_rules grammar2) 0 after_lessons.

(** test.py 94-131 *)
Example all_lessons : let d := dialog 2000 60 lessons teaching in fst d = repeat (Ok (VStr "OK")) 34 /\ sw_model (snd d) = after_lessons.
Proof. vm_compute. split; reflexivity. Qed.
(** test.py 157-179 *)
Example all_questions : fst (dialog 2000 60 questions asking) = map (fun r => Ok (VStr r)) 
  ["True"; "False"; "False"; "True"; "True"; "True"; "True"; "False"; "False"; "True"; "True"; "True"; "True"; "False"; "True"; "True"; "True"; "False"; "False"; "True"; "False"; "False"; "True"].
Proof. vm_compute. reflexivity. Qed.

(** what has been taught *)
Definition true_of (ids : list string) : list (string * bool) := map (fun e => (e, true)) ids.
Definition facts_taught (q : string) : list (string * bool) :=
  if String.eqb q "metal" then true_of ["$1"; "$6"; "$12"]
  else if String.eqb q "element" then true_of ["$1"; "$12"; "$14"; "$8"; "$39"; "$41"; "$43"; "$45"]
  else if String.eqb q "compound" then true_of ["$10"; "$47"; "$49"; "$51"; "$53"]
  else if String.eqb q "nonmetal" then true_of ["$8"; "$14"]
  else if String.eqb q "white" then true_of ["$6"]
  else if String.eqb q "dark_gray" then true_of ["$10"]
  else if String.eqb q "brittle" then true_of ["$10"]
  else if String.eqb q "oxide" then true_of ["$6"]
  else if String.eqb q "sulfide" then true_of ["$10"]
  else if String.eqb q "chloride" then true_of ["$58"; "$59"]
  else if String.eqb q "fuel" then true_of ["$16"] else [].
Definition rules_taught : list taught :=
  [mkTaught "burns_rapidly" (Just "$1") true []; mkTaught "burns_rapidly" (Anyone "$75") true ["burns"];
   mkTaught "combustable" (Just "$16") true []; mkTaught "burns" (Anyone "$21") true ["combustable"];
   mkTaught "element" (Anyone "$55") false ["compound"]; mkTaught "compound" (Anyone "$55") false ["element"];
   mkTaught "compound" (Just "$60") true []; mkTaught "nonmetal" (Anyone "$66") false ["metal"];
   mkTaught "white" (Anyone "$69") false ["dark_gray"]].
Definition names_taught : list (string * string) :=
  [("magnesium", "$1"); ("magnesium oxide", "$6"); ("oxygen", "$8"); ("ferrous sulfide", "$10"); ("iron", "$12"); ("sulfur", "$14"); ("gasoline", "$16"); ("fuels", "$24");
   ("ice", "$27"); ("solid", "$27"); ("steam", "$29"); ("gas", "$29"); ("nitrogen", "$39"); ("hydrogen", "$41"); ("carbon", "$43"); ("copper", "$45"); ("salt", "$47"); ("sugar", "$49");
   ("water", "$51"); ("sulfuric acid", "$53"); ("sodium chloride", "$47"); ("oxides", "$60"); ("metals", "$63")].
Definition aliases_taught : list (string * string) := [("combustable", "$24"); ("metallic", "$63"); ("gas", "$27")].
Definition rank_taught (q : string) (v : bool) : nat := if String.eqb q "burns_rapidly" then 2 else if String.eqb q "burns" then 1 else if v then 0 else 1.

Ltac each H := cbn in H; repeat (destruct H as [<-|H]; [vm_compute; auto 20|]); try destruct H.
Example classroom_at_first : classroom cooper_start [] [] (fun _ => []) [].
Proof.
  constructor; [constructor|..]; try reflexivity.
  - intros q H. each H.
  - intros q H. each H.
  - intros r [].
  - intros r c [].
  - intros p H. each H.
Qed.
Example classroom_after_lessons : classroom after_lessons names_taught aliases_taught facts_taught rules_taught.
Proof.
  constructor; [constructor|..]; try reflexivity.
  - intros q H. each H.
  - intros q H. each H.
  - intros r H. each H.
  - intros r c H. cbn in H. repeat (destruct H as [<-|H]; [intros Hc; cbn in Hc; (destruct Hc as [<-|[]] || destruct Hc); cbn; auto 20|]). destruct H.
  - intros p H. each H.
  - intros p H. each H.
Qed.
Example rules_have_no_circles : well_founded_rules rules_taught rank_taught.
Proof. intros r c H. cbn in H. repeat (destruct H as [<-|H]; [intros Hc; cbn in Hc; (destruct Hc as [<-|[]] || destruct Hc); cbn; lia|]). destruct H. Qed.
Example ferrous_sulfide : is_named names_taught aliases_taught "ferrous sulfide" "$10".
Proof. split; [reflexivity|]. intros p H. each H; discriminate. Qed.

(** what is executed for a sentence: the solver is replaced by one that tells *)
Definition executed (text : string) (w : world cooper) :=
  fst (ask py_match FindOne TryFirst TryFirst 2000 (Some (optimize plain_sizes))
    (mkSolver (fun a b => match a with VList [] => ret (SList [b]) | _ => throw (Raise (py_str a)) end) (fun _ => throw KeyErr)) (fun _ => throw KeyErr) text w).

Definition telling {A} (atoms : list value) : outcome A := Exn (Raise (py_str (VList atoms))).
Definition asked_atoms (v a : bool) (name q : string) : list value :=
  match v, a with
  | true, true => [resolve_ name "$2"; let_true "$3"; quality_ q "$2" "$4"; and_ "$4" "$3" "$1"; check_ "$1"]
  | true, false => [resolve_ name "$2"; let_true "$3"; quality_ q "$2" "$4"; and_ "$3" "$4" "$1"; check_ "$1"]
  | false, true => [resolve_ name "$2"; scoped_ [let_true "$3"]; quality_ q "$2" "$4"; not_ "$4" "$1"; check_ "$1"]
  | false, false => [resolve_ name "$2"; let_true "$3"; quality_ q "$2" "$4"; and_ "$3" "$4" "$5"; not_ "$5" "$1"; check_ "$1"]
  end.
Example asked_atoms_ask : forall v a name q, asks name q "$2" "$4" "$3" "$1" "$5" v (asked_atoms v a name q).
Proof. intros [] [] name q; constructor. Qed.
Example questions_executed :
  executed "ferrous sulfide is a compound" asking = telling (asked_atoms true true "ferrous sulfide" "compound") /\
  executed "magnesium is not a metal" asking = telling (asked_atoms false true "magnesium" "metal") /\
  executed "magnesium is white" asking = telling (asked_atoms true false "magnesium" "white") /\
  executed "magnesium is not white" asking = telling (asked_atoms false false "magnesium" "white").
Proof. vm_compute. repeat split. Qed.
Example lessons_executed :
  executed "magnesium is a metal" teaching = telling (tells "magnesium" "metal" "$1" "$2") /\
  executed "no metal is a nonmetal" teaching = telling (learns "metal" "nonmetal" false "$1" "$2" "$3") /\
  executed "dark-gray things are not white" teaching = telling (learns "dark_gray" "white" false "$1" "$2" "$3").
Proof. vm_compute. repeat split. Qed.

(** the answers that the theorem gives *)
Example ferrous_sulfide_is_not_an_element :
  reply_to facts_taught rules_taught "$10" "element" true "False" /\ reply_to facts_taught rules_taught "$10" "element" false "True" /\
  run 10 (asked_atoms true true "ferrous sulfide" "element") after_lessons = (Ok (VStr "False"), after_lessons) /\
  run 10 (asked_atoms false true "ferrous sulfide" "element") after_lessons = (Ok (VStr "True"), after_lessons).
Proof.
  assert (F : follows facts_taught rules_taught "$10" "element" false).
  { apply (concluded facts_taught rules_taught "$10" (mkTaught "element" (Anyone "$55") false ["compound"])); [cbn; auto 20|exact I|].
    intros c [<-|[]]. apply told. cbn. auto. }
  assert (N : ~ follows facts_taught rules_taught "$10" "element" true).
  { intros H. inversion H as [q v Hi|r Hi Ha Hc Eq Ev]; subst.
    - cbn in Hi. repeat (destruct Hi as [Hi|Hi]; [discriminate|]). destruct Hi.
    - cbn in Hi. repeat (destruct Hi as [<-|Hi]; [discriminate|]). destruct Hi. }
  split; [now apply not_so|]. split; [now apply so|]. vm_compute. split; reflexivity.
Qed.

(** ** what is not so *)

(** "every metal is a nonmetal" is true for the system, although everything that is a
    metal is known not to be a nonmetal, and there is a metal: the truth value
    that is bound is not compared with the one that is found *)
Theorem C103_every_refuted :
  (forall e, follows facts_taught rules_taught e "metal" true -> follows facts_taught rules_taught e "nonmetal" false) /\
  follows facts_taught rules_taught "$1" "metal" true /\
  fst (exchange 2000 60 "every metal is a nonmetal" asking) = Ok (VStr "True").
Proof.
  split; [|split].
  - intros e H. apply (concluded facts_taught rules_taught e (mkTaught "nonmetal" (Anyone "$66") false ["metal"])); [cbn; auto 20|exact I|]. intros c [<-|[]]. exact H.
  - apply told. cbn. auto.
  - vm_compute. reflexivity.
Qed.
Print Assumptions C103_every_refuted.

(** a thing that is asked about and is not known gets the name of a variable as its id,
    and this may be the id that another thing got in the lessons; here nothing was
    ever said about radon *)
Theorem C103_new_names_refuted :
  (forall p, In p (names_taught ++ aliases_taught) -> fst p <> "xenon" /\ fst p <> "radon") /\
  fst (dialog 2000 60 ["xenon is a metal"; "radon is a metal"] asking) = [Ok (VStr "Unable to answer"); Ok (VStr "True")].
Proof.
  split.
  - intros p H. cbn in H. repeat (destruct H as [<-|H]; [split; discriminate|]). destruct H.
  - vm_compute. reflexivity.
Qed.
Print Assumptions C103_new_names_refuted.

(** two names are never compared, and of two qualities only the first is looked at *)
Theorem C103_names_and_qualities_refuted :
  fst (dialog 2000 60 ["magnesium is iron"; "magnesium is not iron"; "ferrous sulfide is a metal"; "ferrous sulfide is a brittle metal"] asking) =
  [Ok (VStr "True"); Ok (VStr "False"); Ok (VStr "Unable to answer"); Ok (VStr "True")].
Proof. vm_compute. reflexivity. Qed.
Print Assumptions C103_names_and_qualities_refuted.

(** the sentence with a capital *)
Example no_reply : exists m, fst (exchange 2000 60 "Magnesium is a metal" asking) = Exn (Raise m).
Proof. eexists. vm_compute. reflexivity. Qed.
