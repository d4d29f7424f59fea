(** * Cooper: the first tree of each question and each lesson *)

From Coq Require Import ZArith String Ascii List Bool Arith Lia.
From Verif Require Import Py ReprProofs Effects Grammar Earley Composer Atoms InferenceModule QuestionSystem PropSystem EarleyProofs6 FragmentModel RegexProofs2 SirSpec SirProofs CooperModel Optimizer QuestionProofs2
  WordReading WordReading2 WordReading3 WordReading4 CooperProofs CooperProofs3 CooperProofs4 CooperProofs5 CooperProofs6 CooperSpec2.
Import ListNotations.
Local Open Scope nat_scope.
Local Open Scope string_scope.
Local Open Scope list_scope.

(** ** the grammars *)
Definition cooper_rank (p : string) (_ : nat) : nat :=
  if String.eqb p "s" then 5 else if String.eqb p "vp" then 4 else if String.eqb p "np" then 3 else if String.eqb p "noun" then 2 else if String.eqb p "common_noun" then 1 else 0.
Lemma words1 : word_grammar_b grammar1 cooper_rank = true.
Proof. vm_compute. reflexivity. Qed.
Lemma words2 : word_grammar_b grammar2 cooper_rank = true.
Proof. vm_compute. reflexivity. Qed.
Definition table1 : list (constituent * list constituent) := Eval vm_compute in table_of rules1.
Definition table2 : list (constituent * list constituent) := Eval vm_compute in table_of rules2.
Lemma table1_eq : table_of (variants_of grammar1) = table1.
Proof. vm_compute. reflexivity. Qed.
Lemma table2_eq : table_of (variants_of grammar2) = table2.
Proof. vm_compute. reflexivity. Qed.
Definition top1 : constituent := phrase "s" [].
Definition top2 : constituent := phrase "s" ["T1"].
Lemma start1 : start_b (table_of (variants_of grammar1)) top1 = true.
Proof. vm_compute. reflexivity. Qed.
Lemma start2 : start_b (table_of (variants_of grammar2)) top2 = true.
Proof. vm_compute. reflexivity. Qed.
Lemma quotes1 : incl (quotes_of table1) grammar_words.
Proof. intros x H. cbn in H. cbn. intuition. Qed.
Lemma quotes2 : incl (quotes_of table2) grammar_words.
Proof. intros x H. cbn in H. cbn. intuition. Qed.

(** the numbers of the rules for nouns and articles *)
Definition arts1 : list (nat * string) := [(20, "a"); (21, "an")].
Definition arts2 : list (nat * string) := [(13, "a"); (14, "an")].
Definition number_nouns (n : nat) (l : list (string * string)) : list (nat * (string * string)) := combine (seq n (length l)) l.
Definition nouns1 := number_nouns 28 lesson_nouns.
Definition nouns2 := number_nouns 26 question_nouns.
Lemma numbered {A} (l : list A) n x : In x l -> exists j, In (j, x) (combine (seq n (length l)) l).
Proof.
  revert n. induction l as [|y l IH]; intros n []; cbn.
  - subst. exists n. now left.
  - destruct (IH (S n) H) as (j & Hj). exists j. now right.
Qed.
Ltac all_of H := cbn in H; repeat (destruct H as [H|H]; [injection H as <- <-|]); [..|destruct H].
Lemma arts1_rules jd d : In (jd, d) arts1 -> nth_error rules1 jd = Some (art_rule d).
Proof. intros H. all_of H; reflexivity. Qed.
Lemma arts2_rules jd d : In (jd, d) arts2 -> nth_error rules2 jd = Some (art_rule d).
Proof. intros H. all_of H; reflexivity. Qed.
Lemma nouns1_rules j w q : In (j, (w, q)) nouns1 -> nth_error rules1 j = Some (noun_rule "common_noun" w q).
Proof. intros H. cbn in H. repeat (destruct H as [H|H]; [injection H as <- <- <-; reflexivity|]). destruct H. Qed.
Lemma nouns2_rules j w q : In (j, (w, q)) nouns2 -> nth_error rules2 j = Some (noun_rule "noun" w q).
Proof. intros H. cbn in H. repeat (destruct H as [H|H]; [injection H as <- <- <-; reflexivity|]). destruct H. Qed.
Lemma arts1_all d : In d articles -> exists jd, In (jd, d) arts1.
Proof. intros [<-|[<-|[]]]; [exists 20|exists 21]; cbn; auto. Qed.
Lemma arts2_all d : In d articles -> exists jd, In (jd, d) arts2.
Proof. intros [<-|[<-|[]]]; [exists 13|exists 14]; cbn; auto. Qed.
Lemma nouns1_all w q : In (w, q) lesson_nouns -> exists j, In (j, (w, q)) nouns1.
Proof. apply numbered. Qed.
Lemma nouns2_all w q : In (w, q) question_nouns -> exists j, In (j, (w, q)) nouns2.
Proof. apply numbered. Qed.
Lemma arts_letters d : In d articles -> exists a s, d = String a s.
Proof. intros [<-|[<-|[]]]; eauto. Qed.
Lemma nouns1_quality w q : In (w, q) lesson_nouns -> In q qualities /\ exists a s, w = String a s.
Proof. intros H. cbn in H. repeat (destruct H as [H|H]; [injection H as <- <-; split; [cbn; auto 20|eauto]|]). destruct H. Qed.
Lemma nouns2_quality w q : In (w, q) question_nouns -> In q qualities /\ exists a s, w = String a s.
Proof. intros H. cbn in H. repeat (destruct H as [H|H]; [injection H as <- <-; split; [cbn; auto 20|eauto]|]). destruct H. Qed.

(** ** the shapes *)
Definition noun2 {A} (j : nat) (w : string) : shape A := SNode 20 [SNode j [SWord w]].
Definition art_ {A} (jd : nat) (d : string) : shape A := SNode jd [SWord d].
Definition is_2 {A} : shape A := SNode 18 [SWord "is"].
Definition named2 (m : nat) : shape nat := SNode 22 [SNode (37 + m) (map SToken (seq 0 m))].
Definition named1 (m : nat) : shape nat := SNode (39 + m) (map SToken (seq 0 m)).
Definition noun1 {A} (j : nat) (w : string) : shape A := SNode 26 [SNode j [SWord w]].
Definition np1 {A} (j : nat) (w : string) : shape A := SNode 11 [SNode 26 [SNode j [SWord w]]].

Definition best2 (ks : list kind) (s : shape nat) : bool := only_best 12 table2 ks top2 (SNode 0 [s]).
Definition best1 (ks : list kind) (s : shape nat) : bool := only_best 12 table1 ks top1 s.
Definition each {A} (l : list A) (f : A -> bool) : bool := forallb f l.
Lemma each_in {A} (l : list A) f x : each l f = true -> In x l -> f x = true.
Proof. unfold each. rewrite forallb_forall. auto. Qed.

Lemma questions_best :
  each [1; 2] (fun m => each nouns2 (fun p => let '(j, (w, q)) := p in
    each arts2 (fun a => let '(jd, d) := a in
      best2 (repeat Name m ++ [Lit "is"; Lit d; Lit w]) (SNode 1 [named2 m; is_2; art_ jd d; noun2 j w]) &&
      best2 (repeat Name m ++ [Lit "is"; Lit "not"; Lit d; Lit w]) (SNode 2 [named2 m; is_2; SWord "not"; art_ jd d; noun2 j w])) &&
    best2 (repeat Name m ++ [Lit "is"; Lit w]) (SNode 4 [named2 m; is_2; noun2 j w]) &&
    best2 (repeat Name m ++ [Lit "is"; Lit "not"; Lit w]) (SNode 10 [named2 m; is_2; SWord "not"; noun2 j w]))) = true.
Proof. vm_compute. reflexivity. Qed.
Lemma lessons_best :
  each [1; 2] (fun m => each nouns1 (fun p => let '(j, (w, q)) := p in each arts1 (fun a => let '(jd, d) := a in
    best1 (repeat Name m ++ [Lit "is"; Lit d; Lit w]) (SNode 0 [named1 m; is_2; art_ jd d; np1 j w])))) = true.
Proof. vm_compute. reflexivity. Qed.
Lemma rules_best :
  each nouns1 (fun p1 => let '(j, (w1, A)) := p1 in each nouns1 (fun p2 => let '(i, (w2, B)) := p2 in
    best1 [Lit w1; Lit "are"; Lit w2] (SNode 9 [noun1 j w1; SNode 19 [SWord "are"]; np1 i w2]) &&
    each arts1 (fun a => let '(jd, d) := a in
      best1 [Lit "no"; Lit w1; Lit "is"; Lit d; Lit w2] (SNode 2 [SWord "no"; noun1 j w1; is_2; art_ jd d; np1 i w2]) &&
      each arts1 (fun a2 => let '(jd2, d2) := a2 in
        best1 [Lit d2; Lit w1; Lit "is"; Lit "not"; Lit d; Lit w2] (SNode 3 [art_ jd2 d2; noun1 j w1; is_2; SWord "not"; art_ jd d; np1 i w2]))))) = true.
Proof. vm_compute. reflexivity. Qed.
