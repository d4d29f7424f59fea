(** * Cooper: the meaning of the trees of questions and lessons *)

From Coq Require Import ZArith String Ascii List Bool Arith Lia.
From Verif Require Import Py ReprProofs Effects Grammar Earley Composer Atoms FragmentModel CooperModel Optimizer WordReading WordReading2 WordReading3 WordReading4 CooperProofs CooperProofs3 CooperProofs4 CooperProofs5.
Import ListNotations.
Local Open Scope nat_scope.
Local Open Scope string_scope.
Local Open Scope list_scope.

Lemma optimized_learn A B v x2 x3 x4 : NoDup [x2; x3; x4] -> In A qualities ->
  exists its, optimize plain_sizes [let_is x3 "true"; let_is x4 (truth_text v); VTuple [VStr "sentence_learn"; VTuple [VStr B; VVar x2; VVar x4]; VList [VTuple [VStr A; VVar x2; VVar x3]]]] [] = Ok its /\
    last_iteration its = VList (learns A B v x2 x3 x4).
Proof. intros Hd H. pose proof (isolated_learn A B (truth_text v) x2 x3 x4 Hd) as L. destruct v; cbn [truth_text] in *; optimized H L. Qed.

(** ** composition *)
Ltac tree := repeat (first [match goal with H : nth_error ?rules ?j = Some _ |- context [build ?rules _ (SNode ?j _)] => rewrite (build_node rules _ j _ _ H) end
                           | match goal with |- context [build ?rules ?c (SNode ?j ?ss)] => erewrite (build_node rules c j ss) by reflexivity end]; cbn [build_all g_cons noun_rule art_rule]).
Ltac composed k :=
  let E1 := fresh in let E2 := fresh in let E3 := fresh in let E4 := fresh in let E5 := fresh in
  destruct (num_form (S k)) as (z1 & s1 & E1), (num_form (S (S k))) as (z2 & s2 & E2), (num_form (S (S (S k)))) as (z3 & s3 & E3),
    (num_form (S (S (S (S k))))) as (z4 & s4 & E4), (num_form (S (S (S (S (S k)))))) as (z5 & s5 & E5);
  tree; cbv -[repr_Z Z.of_nat]; repeat (progress (rewrite ?E1, ?E2, ?E3, ?E4, ?E5; cbv -[repr_Z Z.of_nat])); reflexivity.

(** the name: a word, or two words *)
Inductive named : list string -> string -> Prop :=
| name_of_one a u : named [String a u] (String a u)
| name_of_two a u b v : named [String a u; String b v] (append (String a u) (String " " (String b v))).

Section Questions.
  Variables (words : list string) (name : string).
  Variables (jd : nat) (d : ascii) (d' : string).
  Variables (j : nat) (b : ascii) (w' q : string) (k : nat).
  Hypothesis Hn : named words name.
  Hypothesis Hd : nth_error rules2 jd = Some (art_rule (String d d')).
  Hypothesis Hj : nth_error rules2 j = Some (noun_rule "noun" (String b w') q).
  Notation noun := (SNode 20 [SNode j [SWord (String b w')]]).
  Definition name2 (ws : list string) : shape string := SNode 22 [SNode (37 + length ws) (map SToken ws)].
  Notation art := (SNode jd [SWord (String d d')]).
  Notation is_ := (SNode 18 [SWord "is"]).
  Notation x1 := (var (S k)). Notation x2 := (var (S (S k))). Notation x3 := (var (S (S (S k)))). Notation x4 := (var (S (S (S (S k))))). Notation x5 := (var (S (S (S (S (S k)))))).
  Notation res := (VTuple [VStr "resolve_name"; VStr name; VVar x2]).
  Notation tru x := (VTuple [VStr "let"; VVar x; VStr "true"]).
  Notation qua := (VTuple [VStr q; VVar x2; VVar x4]).
  Notation chk := (VTuple [VStr "sentence_check"; VVar x1]).
  Notation product atoms := (mkProduct [("Semantics", VList atoms)] [] (VList []) [x1]).
  Notation sentence s := (build rules2 (phrase "s" ["T1"]) (SNode 0 [s])).
  Lemma composed_is_a : process None (sentence (SNode 1 [name2 words; is_; art; noun])) k =
    (Ok (product [res; tru x3; qua; VTuple [VStr "and_3v"; VVar x4; VVar x3; VVar x1]; chk]), 4 + k).
  Proof. destruct Hn; cbn [name2 length map plus]; composed k. Qed.
  Lemma composed_is : process None (sentence (SNode 4 [name2 words; is_; noun])) k =
    (Ok (product [res; tru x3; qua; VTuple [VStr "and_3v"; VVar x3; VVar x4; VVar x1]; chk]), 4 + k).
  Proof. destruct Hn; cbn [name2 length map plus]; composed k. Qed.
  Lemma composed_is_not_a : process None (sentence (SNode 2 [name2 words; is_; SWord "not"; art; noun])) k =
    (Ok (product [res; tru x3; qua; VTuple [VStr "not_3v"; VVar x4; VVar x1]; chk]), 4 + k).
  Proof. destruct Hn; cbn [name2 length map plus]; composed k. Qed.
  Lemma composed_is_not : process None (sentence (SNode 10 [name2 words; is_; SWord "not"; noun])) k =
    (Ok (product [res; tru x3; qua; VTuple [VStr "and_3v"; VVar x3; VVar x4; VVar x5]; VTuple [VStr "not_3v"; VVar x5; VVar x1]; chk]), 5 + k).
  Proof. destruct Hn; cbn [name2 length map plus]; composed k. Qed.
End Questions.

Section Lessons.
  Variables (words : list string) (name : string).
  Variables (jd : nat) (d : ascii) (d' : string).
  Variables (jd2 : nat) (e : ascii) (e' : string).
  Variables (j : nat) (b : ascii) (w' q : string) (i : nat) (c : ascii) (v' p : string) (k : nat).
  Hypothesis Hn : named words name.
  Hypothesis Hd : nth_error rules1 jd = Some (art_rule (String d d')).
  Hypothesis Hd2 : nth_error rules1 jd2 = Some (art_rule (String e e')).
  Hypothesis Hj : nth_error rules1 j = Some (noun_rule "common_noun" (String b w') q).
  Hypothesis Hi : nth_error rules1 i = Some (noun_rule "common_noun" (String c v') p).
  Notation noun := (SNode 26 [SNode j [SWord (String b w')]]).
  Notation np := (SNode 11 [SNode 26 [SNode i [SWord (String c v')]]]).
  Definition name1 (ws : list string) : shape string := SNode (39 + length ws) (map SToken ws).
  Notation art := (SNode jd [SWord (String d d')]).
  Notation art2 := (SNode jd2 [SWord (String e e')]).
  Notation is_ := (SNode 18 [SWord "is"]).
  Notation x1 := (var (S k)). Notation x2 := (var (S (S k))). Notation x3 := (var (S (S (S k)))).
  Notation product atoms := (mkProduct [("Semantics", VList atoms)] [] (VList []) []).
  Notation sentence s := (build rules1 (phrase "s" []) s).
  Lemma composed_tell : process None (sentence (SNode 0 [name1 words; is_; art; np])) k =
    (Ok (product [let_is x2 "true"; VTuple [VStr "resolve_name"; VStr name; VVar x1]; VTuple [VStr "sentence_tell"; VList [VTuple [VStr p; VVar x1; VVar x2]]]]), 2 + k).
  Proof. destruct Hn; cbn [name1 length map plus]; composed k. Qed.
  Lemma composed_no : process None (sentence (SNode 2 [SWord "no"; noun; is_; art; np])) k =
    (Ok (product [let_is x2 "true"; let_is x3 "false"; VTuple [VStr "sentence_learn"; VTuple [VStr p; VVar x1; VVar x3]; VList [VTuple [VStr q; VVar x1; VVar x2]]]]), 3 + k).
  Proof. composed k. Qed.
  Lemma composed_are : process None (sentence (SNode 9 [noun; SNode 19 [SWord "are"]; np])) k =
    (Ok (product [let_is x2 "true"; let_is x3 "true"; VTuple [VStr "sentence_learn"; VTuple [VStr p; VVar x1; VVar x3]; VList [VTuple [VStr q; VVar x1; VVar x2]]]]), 3 + k).
  Proof. composed k. Qed.
  Lemma composed_a_not : process None (sentence (SNode 3 [art2; noun; is_; SWord "not"; art; np])) k =
    (Ok (product [let_is x2 "true"; let_is x3 "false"; VTuple [VStr "sentence_learn"; VTuple [VStr p; VVar x1; VVar x3]; VList [VTuple [VStr q; VVar x1; VVar x2]]]]), 3 + k).
  Proof. composed k. Qed.
End Lessons.
