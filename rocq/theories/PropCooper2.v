(** * C103: teaching by sentences, and asking by sentences *)

From Coq Require Import ZArith String Ascii List Bool Arith Lia.
From Verif Require Import Py ReprProofs Effects Grammar Earley Composer Atoms InferenceModule QuestionSystem PropSystem PropParser Solver Memory Generator TalkModel Pipeline SirModel FragmentModel Sql SqliteDataSource RegexProofs2
  CooperModel Optimizer CooperSpec CooperProofs CooperProofs2 CooperProofs3 CooperProofs4 CooperProofs5 CooperSpec2 CooperProofs7 CooperProofs8 PropCooper.
Import ListNotations.
Local Open Scope nat_scope.
Local Open Scope string_scope.
Local Open Scope list_scope.

(** a text that gives a lesson, and a text that asks a question *)
Definition gives (text : string) (l : lesson) : Prop :=
  exists names others, lesson_words l names others /\ in_words names others (normalize text).
Record question : Type := Ask { q_name : string; q_quality : string; q_truth : bool }.
Definition poses (text : string) (x : question) : Prop :=
  exists names w others, name_words names (q_name x) /\ In (w, q_quality x) question_nouns /\ question_words w (q_truth x) others /\ in_words names others (normalize text).

(** ** what the system knows *)
Record knows_lessons (number : nat) (L : list lesson) (w : cooper) (names : list (string * string)) (facts : string -> list (string * bool)) (rules : list taught) : Prop := {
  kl_room : classroom w names [] facts rules;
  kl_out : co_out w = [];
  kl_names : NoDup (map fst names);
  kl_ids : NoDup (map snd names);
  kl_old : forall p, In p names -> exists i, i <= number /\ snd p = var i;
  kl_facts : forall q e v, In (e, v) (facts q) <-> v = true /\ exists name, In (name, e) names /\ In (Tell name q) L;
  kl_rules : forall r, In r rules -> exists A B E v, r = mkTaught B (Anyone E) v [A] /\ In (Learn A B v) L;
  kl_learned : forall A B v, In (Learn A B v) L -> exists E, In (mkTaught B (Anyone E) v [A]) rules;
  kl_told : forall name q, In (Tell name q) L -> exists e, In (name, e) names
}.

Lemma knows_nothing : knows_lessons 0 [] cooper_start [] (fun _ => []) [].
Proof.
  split; try (now constructor); try (intros; contradiction); try exact classroom_at_first; try reflexivity.
  intros q e v. split; [intros []|]. intros (_ & name & [] & _).
Qed.

Lemma one_entry (names : list (string * string)) name e : NoDup (map fst names) -> In (name, e) names -> filter (fun p => String.eqb (fst p) name) names = [(name, e)].
Proof.
  induction names as [|[n0 e0] names IH]; intros Hd []; cbn in Hd; apply NoDup_cons_iff in Hd as (Hn & Hd); cbn [filter fst].
  - injection H as -> ->. rewrite String.eqb_refl. f_equal. clear - Hn. induction names as [|[n1 e1] names IH]; [reflexivity|]. cbn [filter fst]. destruct (String.eqb_spec n1 name) as [->|N].
    + elim Hn. now left.
    + apply IH. intros H. apply Hn. now right.
  - destruct (String.eqb_spec n0 name) as [->|N]; [|now apply IH]. elim Hn. apply in_map_iff. now exists (name, e).
Qed.
Lemma same_id (names : list (string * string)) name e e' : NoDup (map fst names) -> In (name, e) names -> In (name, e') names -> e = e'.
Proof. intros Hd H H'. pose proof (one_entry _ _ _ Hd H) as E. rewrite (one_entry _ _ _ Hd H') in E. congruence. Qed.
Lemma same_name (names : list (string * string)) name name' e : NoDup (map snd names) -> In (name, e) names -> In (name', e) names -> name = name'.
Proof.
  induction names as [|[n0 e0] names IH]; intros Hd []; cbn in Hd; apply NoDup_cons_iff in Hd as (Hn & Hd).
  - intros [H'|H']; [congruence|]. injection H as -> ->. elim Hn. apply in_map_iff. now exists (name', e).
  - intros [H'|H']; [|now apply IH]. injection H' as -> ->. elim Hn. apply in_map_iff. now exists (name, e).
Qed.

(** ** a lesson *)
Lemma lesson_learned fuel limit text l number history L w names facts rules :
  knows_lessons number L w names facts rules ->
  (exists names others, lesson_words l names others) ->
  (forall history, exists res t ts,
    parse_with py_match fuel text (past1 history) = (Ok res, past1 (history ++ [(fuel, text)])) /\ Earley.pr_products res = t :: ts /\
    forall k, meant (Some (optimize plain_sizes)) t k (lesson_variables l + k) (lesson_atoms l k)) ->
  6 <= limit ->
  exists w1 names1 facts1 rules1, exchange fuel limit text (mkWorld (past1 history) number w) = (Ok (VStr "OK"), mkWorld (past1 (history ++ [(fuel, text)])) (lesson_variables l + number) w1) /\
    knows_lessons (lesson_variables l + number) (L ++ [l]) w1 names1 facts1 rules1.
Proof.
  intros K (ws & others & Hl) Hp Hlim. destruct (Hp history) as (res & t & ts & E1 & E2 & E3). specialize (E3 number).
  destruct K as [Kroom Kout Knames Kids Kold Kfacts Krules Klearned Ktold].
  replace limit with (6 + (limit - 6)) by lia. set (n := limit - 6).
  destruct l as [name q|A B v].
  - assert (Hq : In q qualities /\ lower name = name).
    { inversion Hl; subst. split; [now apply (nouns1_quality w0)|now apply (names_lower ws)]. } destruct Hq as (Hq & Hlow).
    cbn [lesson_variables lesson_atoms] in E3. set (E := var (S number)) in *. set (tr := var (S (S number))) in *.
    assert (HE : E <> tr) by (intros X; apply var_inj in X; lia).
    assert (HA : forall x, In x [E; tr] -> x <> "Atoms") by (intros x [<-|[<-|[]]]; intros X; discriminate X).
    destruct (in_dec string_dec name (map fst names)) as [Hin|Hout].
    + apply in_map_iff in Hin as ((name0 & e) & En & Hin). cbn in En. subst name0.
      assert (Hnamed : is_named names [] name e) by (split; [exact (one_entry _ _ _ Knames Hin)|intros p []]).
      destruct (C103_told w names [] facts rules n name e q E tr Kroom Kout Hlow Hnamed Hq HE HA) as (w1 & Er & Kroom1 & Kout1).
      exists w1, names, (tell e q true facts), rules. split; [exact (exchange_run grammar1 fuel (6 + n) text history number _ w w1 res t ts _ _ E1 E2 E3 ltac:(lia) Er)|].
      constructor; try assumption.
      * intros p Hp'. destruct (Kold p Hp') as (i & Hi & Ei). exists i. split; [cbn; lia|exact Ei].
      * intros q' e' v'. rewrite tell_all, Kfacts. split.
        -- intros [(-> & name' & Hn' & Ht)|(-> & [= -> ->] & _)]; (split; [reflexivity|]).
           ++ exists name'. split; [exact Hn'|]. apply in_or_app. now left.
           ++ exists name. split; [exact Hin|]. apply in_or_app. right. now left.
        -- intros (-> & name' & Hn' & Ht). apply in_app_or in Ht as [Ht|[[= <- <-]|[]]]; [left; split; [reflexivity|now exists name']|].
           rewrite (same_id _ _ _ _ Knames Hn' Hin). destruct (existsb (fun f => String.eqb (fst f) e) (facts q)) eqn:Ex.
           ++ left. apply existsb_exists in Ex as ((e0 & u) & Hu & Ee). cbn in Ee. apply String.eqb_eq in Ee. subst e0. pose proof (proj1 (Kfacts _ _ _) Hu) as (-> & X). auto.
           ++ right. split; [reflexivity|split; [reflexivity|]]. intros u Hu.
              assert (X : existsb (fun f => String.eqb (fst f) e) (facts q) = true) by (apply existsb_exists; exists (e, u); split; [exact Hu|apply String.eqb_refl]). congruence.
      * intros r Hr. destruct (Krules r Hr) as (A & B & E0 & v & -> & Hi). exists A, B, E0, v. split; [reflexivity|]. apply in_or_app. now left.
      * intros A B v Hi. apply in_app_or in Hi as [Hi|[Hi|[]]]; [now apply Klearned|discriminate].
      * intros name' q' Hi. apply in_app_or in Hi as [Hi|[[= <- <-]|[]]]; [now apply Ktold in Hi|now exists e].
    + assert (Hnew : forall p, In p (names ++ []) -> fst p <> name).
      { intros p Hp'. rewrite app_nil_r in Hp'. intros <-. apply Hout. now apply in_map. }
      destruct (C103_told_of_a_new_thing w names [] facts rules n name q E tr Kroom Kout Hlow Hnew Hq HE HA) as (w1 & Er & Kroom1 & Kout1 & _).
      assert (Hfresh : ~ In E (map snd names)).
      { intros X. apply in_map_iff in X as (p & Ep & Hp'). destruct (Kold p Hp') as (i & Hi & Ei). rewrite Ei in Ep. apply var_inj in Ep. lia. }
      exists w1, (names ++ [(name, E)]), (tell E q true facts), rules. split; [exact (exchange_run grammar1 fuel (6 + n) text history number _ w w1 res t ts _ _ E1 E2 E3 ltac:(lia) Er)|].
      constructor; try assumption.
      * rewrite map_app. cbn [map fst]. apply NoDup_Add with (a := name) (l := map fst names); [|now split]. rewrite <- (app_nil_r (map fst names)) at 1. apply Add_app.
      * rewrite map_app. cbn [map snd]. apply NoDup_Add with (a := E) (l := map snd names); [|now split]. rewrite <- (app_nil_r (map snd names)) at 1. apply Add_app.
      * intros p Hp'. apply in_app_or in Hp' as [Hp'|[<-|[]]]; [destruct (Kold p Hp') as (i & Hi & Ei); exists i; split; [cbn; lia|exact Ei]|]. exists (S number). split; [cbn; lia|reflexivity].
      * intros q' e' v'. rewrite tell_all, Kfacts. split.
        -- intros [(-> & name' & Hn' & Ht)|(-> & [= -> ->] & _)]; (split; [reflexivity|]).
           ++ exists name'. split; apply in_or_app; now left.
           ++ exists name. split; apply in_or_app; right; now left.
        -- intros (-> & name' & Hn' & Ht). apply in_app_or in Ht as [Ht|[[= <- <-]|[]]].
           ++ destruct (Ktold _ _ Ht) as (e1 & He1). apply in_app_or in Hn' as [Hn'|[[= <- <-]|[]]]; [left; split; [reflexivity|now exists name']|].
              elim Hout. apply in_map_iff. now exists (name, e1).
           ++ apply in_app_or in Hn' as [Hn'|[[= <-]|[]]]; [elim Hout; apply in_map_iff; now exists (name, e')|].
              right. split; [reflexivity|split; [reflexivity|]]. intros u Hu. apply Kfacts in Hu as (_ & n' & Hn' & _). apply Hfresh. apply in_map_iff. now exists (n', E).
      * intros r Hr. destruct (Krules r Hr) as (A & B & E0 & v & -> & Hi). exists A, B, E0, v. split; [reflexivity|]. apply in_or_app. now left.
      * intros A B v Hi. apply in_app_or in Hi as [Hi|[Hi|[]]]; [now apply Klearned|discriminate].
      * intros name' q' Hi. apply in_app_or in Hi as [Hi|[[= <- <-]|[]]]; [apply Ktold in Hi as (e & He); exists e; apply in_or_app; now left|exists E; apply in_or_app; right; now left].
  - assert (Hq : In A qualities /\ In B qualities) by (inversion Hl; subst; split; eapply nouns1_quality; eassumption). destruct Hq as (HqA & HqB).
    cbn [lesson_variables lesson_atoms] in E3. set (E := var (S number)) in *. set (ta := var (S (S number))) in *. set (tb := var (S (S (S number)))) in *.
    assert (HE : NoDup [E; ta; tb]) by (apply (vars_differ number [1; 2; 3]); repeat constructor; cbn; lia).
    assert (HA : forall x, In x [E; ta; tb] -> ~ In x ["Head"; "Body"]) by (intros x Hx [H|[H|[]]]; destruct Hx as [<-|[<-|[<-|[]]]]; discriminate H).
    destruct (C103_learned w names [] facts rules n A B v E ta tb Kroom Kout HqA HqB HE HA) as (w1 & Er & Kroom1 & Kout1).
    exists w1, names, facts, (rules ++ [mkTaught B (Anyone E) v [A]]). split; [exact (exchange_run grammar1 fuel (6 + n) text history number _ w w1 res t ts _ _ E1 E2 E3 ltac:(lia) Er)|].
    constructor; try assumption.
    + intros p Hp'. destruct (Kold p Hp') as (i & Hi & Ei). exists i. split; [cbn; lia|exact Ei].
    + intros q e u. rewrite Kfacts. split; intros (-> & name & Hn & Ht); (split; [reflexivity|]); exists name; (split; [exact Hn|]); [apply in_or_app; now left|].
      apply in_app_or in Ht as [Ht|[Ht|[]]]; [exact Ht|discriminate].
    + intros r Hr. apply in_app_or in Hr as [Hr|[<-|[]]].
      * destruct (Krules r Hr) as (A' & B' & E0 & v' & -> & Hi). exists A', B', E0, v'. split; [reflexivity|]. apply in_or_app. now left.
      * exists A, B, E, v. split; [reflexivity|]. apply in_or_app. right. now left.
    + intros A' B' v' Hi. apply in_app_or in Hi as [Hi|[[= <- <- <-]|[]]].
      * destruct (Klearned _ _ _ Hi) as (E0 & H0). exists E0. apply in_or_app. now left.
      * exists E. apply in_or_app. right. now left.
    + intros name q Hi. apply in_app_or in Hi as [Hi|[Hi|[]]]; [now apply Ktold in Hi|discriminate].
Qed.

Lemma lessons_learned texts L : Forall2 gives texts L -> exists N, forall fuel limit, N <= fuel -> 6 <= limit ->
  forall number history L0 w names facts rules, knows_lessons number L0 w names facts rules ->
  exists number1 w1 names1 facts1 rules1, dialog fuel limit texts (mkWorld (past1 history) number w) =
    (repeat (Ok (VStr "OK")) (length texts), mkWorld (past1 (history ++ map (pair fuel) texts)) number1 w1) /\
    knows_lessons number1 (L0 ++ L) w1 names1 facts1 rules1.
Proof.
  induction 1 as [|text l texts L (ws & others & Hl & Hin) _ (N2 & IH)].
  - exists 0. intros fuel limit _ _ number history L0 w names facts rules K. exists number, w, names, facts, rules. cbn. rewrite !app_nil_r. auto.
  - destruct (lesson_read text l ws others Hl Hin) as (N1 & H1). exists (N1 + N2). intros fuel limit Hf Hlim number history L0 w names facts rules K.
    destruct (lesson_learned fuel limit text l number history L0 w names facts rules K (ex_intro _ ws (ex_intro _ others Hl)) (H1 fuel ltac:(lia)) Hlim) as (w1 & names1 & facts1 & rules1 & E1 & K1).
    destruct (IH fuel limit ltac:(lia) Hlim _ (history ++ [(fuel, text)]) _ _ _ _ _ K1) as (number2 & w2 & names2 & facts2 & rules2 & E2 & K2).
    exists number2, w2, names2, facts2, rules2. cbn [dialog]. rewrite E1, E2. cbn [length repeat map]. rewrite <- !app_assoc in *. split; [reflexivity|exact K2].
Qed.

(** ** what follows *)
Lemma follows_holds number L w names facts rules name e : knows_lessons number L w names facts rules -> In (name, e) names ->
  forall q v, follows facts rules e q v <-> holds L name q v.
Proof.
  intros K Hn q v. split.
  - induction 1 as [q v H|r Hr Ha Hc IH].
    + apply (kl_facts _ _ _ _ _ _ K) in H as (-> & name' & Hn' & Ht). rewrite <- (same_name _ _ _ _ (kl_ids _ _ _ _ _ _ K) Hn' Hn). now constructor.
    + destruct (kl_rules _ _ _ _ _ _ K r Hr) as (A & B & E & v & -> & Hi). cbn in *. apply by_rule with A; [exact Hi|]. apply IH. now left.
  - induction 1 as [q H|A B v Hi _ IH].
    + apply told, (kl_facts _ _ _ _ _ _ K). split; [reflexivity|]. now exists name.
    + destruct (kl_learned _ _ _ _ _ _ K _ _ _ Hi) as (E & Hr). apply (concluded facts rules e (mkTaught B (Anyone E) v [A])); [exact Hr|exact I|]. intros c [<-|[]]. exact IH.
Qed.
Lemma right_is_right number L w names facts rules name e q v r : knows_lessons number L w names facts rules -> In (name, e) names ->
  reply_to facts rules e q v r -> right_reply L name q v r.
Proof.
  intros K Hn H. pose proof (follows_holds _ _ _ _ _ _ _ _ K Hn) as F. destruct H as [H|H1 H2|H1 H2]; constructor; rewrite <- ?F; assumption.
Qed.

(** ** questions *)
Lemma questions_answered texts qs L rank : Forall2 poses texts qs -> (forall A B v, In (Learn A B v) L -> rank A true < rank B v) ->
  (forall x, In x qs -> exists q, In (Tell (q_name x) q) L) ->
  exists N, forall fuel limit, N <= fuel -> 4 <= limit -> (forall x, In x qs -> rank (q_quality x) true < limit /\ rank (q_quality x) false < limit) ->
  forall number0 w names facts rules, knows_lessons number0 L w names facts rules ->
  forall number history, exists replies number1,
    dialog fuel limit texts (mkWorld (past2 history) number w) = (map (fun r => Ok (VStr r)) replies, mkWorld (past2 (history ++ map (pair fuel) texts)) number1 w) /\
    Forall2 (fun x r => right_reply L (q_name x) (q_quality x) (q_truth x) r) qs replies.
Proof.
  intros Hp Hrank. induction Hp as [|text x texts qs (ws & wd & others & Hn & Hw & Hq & Hin) _ IH]; intros Hknown.
  - exists 0. intros fuel limit _ _ _ number0 w names facts rules K number history. exists [], number. cbn. rewrite app_nil_r. split; [reflexivity|constructor].
  - destruct IH as (N2 & IH); [intros y Hy; apply Hknown; now right|].
    destruct (question_read text ws (q_name x) wd (q_quality x) (q_truth x) others Hn Hw Hq Hin) as (N1 & H1). exists (N1 + N2).
    intros fuel limit Hf Hlim Hranks number0 w names facts rules K number history.
    destruct (H1 fuel ltac:(lia) history) as (res & t & ts & E1 & E2 & E3). destruct (E3 number) as (number1 & atoms & _ & Hm & Ha).
    destruct (Hknown x (or_introl eq_refl)) as (q0 & Ht). destruct (kl_told _ _ _ _ _ _ K _ _ Ht) as (e & He).
    assert (Hnamed : is_named names [] (q_name x) e) by (split; [exact (one_entry _ _ _ (kl_names _ _ _ _ _ _ K) He)|intros p []]).
    assert (Hwf : well_founded_rules rules rank).
    { intros r c Hr Hc. destruct (kl_rules _ _ _ _ _ _ K r Hr) as (A & B & E & v & -> & Hi). cbn in *. destruct Hc as [<-|[]]. now apply Hrank. }
    destruct (Hranks x (or_introl eq_refl)) as (R1 & R2).
    assert (Nd : NoDup [var (S (S number)); var (S (S (S (S number)))); var (S (S (S number))); var (S number); var (S (S (S (S (S number)))))]) by (apply (vars_differ number [2; 4; 3; 1; 5]); repeat constructor; cbn; lia).
    destruct (C103_answers_follow w names [] facts rules rank (q_name x) e (q_quality x) _ _ _ _ _ limit (q_truth x) atoms (kl_room _ _ _ _ _ _ K) (kl_out _ _ _ _ _ _ K) Hwf (names_lower _ _ Hn) Hnamed
      (proj1 (nouns2_quality _ _ Hw)) Nd R1 R2 Hlim Ha) as (r & Er & Hr & _).
    pose proof (exchange_run grammar2 fuel limit text history number number1 w w res t ts atoms _ E1 E2 Hm ltac:(lia) Er) as Ex.
    destruct (IH fuel limit ltac:(lia) Hlim (fun y Hy => Hranks y (or_intror Hy)) number0 w names facts rules K number1 (history ++ [(fuel, text)])) as (replies & number2 & Ed & Hrs).
    exists (r :: replies), number2. cbn [dialog map]. rewrite Ex, Ed, <- app_assoc. split; [reflexivity|]. constructor; [|exact Hrs]. exact (right_is_right _ _ _ _ _ _ _ _ _ _ _ K He Hr).
Qed.

(** ** the theorems *)

(** Every list of lessons of the forms "X is a N", "no A is a B", "As are Bs" and
    "an A is not a B", for all names of one or two words, in any case and
    spacing of the other words, and any number of them: each is confirmed.  When the
    rules that were taught do not go round in circles, each question of the forms "X is
    (not) (a) N", about anything that a lesson was about, gets the reply that
    follows from the lessons, and no question changes what is known. *)
Theorem C103_taught_then_asked :
  forall texts lessons_given qtexts qs rank,
    Forall2 gives texts lessons_given -> Forall2 poses qtexts qs ->
    (forall A B v, In (Learn A B v) lessons_given -> rank A true < rank B v) ->
    (forall x, In x qs -> exists q, In (Tell (q_name x) q) lessons_given) ->
    exists N, forall fuel limit, N <= fuel -> 6 <= limit -> (forall x, In x qs -> rank (q_quality x) true < limit /\ rank (q_quality x) false < limit) ->
    exists after replies,
      dialog fuel limit texts teaching = (repeat (Ok (VStr "OK")) (length texts), after) /\
      fst (dialog fuel limit qtexts (mkWorld (grammar_rules grammar2) 0 (sw_model after))) = map (fun r => Ok (VStr r)) replies /\
      sw_model (snd (dialog fuel limit qtexts (mkWorld (grammar_rules grammar2) 0 (sw_model after)))) = sw_model after /\
      Forall2 (fun x r => right_reply lessons_given (q_name x) (q_quality x) (q_truth x) r) qs replies.
Proof.
  intros texts L qtexts qs rank Ht Hq Hrank Hknown.
  destruct (lessons_learned texts L Ht) as (N1 & H1). destruct (questions_answered qtexts qs L rank Hq Hrank Hknown) as (N2 & H2). exists (N1 + N2). intros fuel limit Hf Hlim Hr.
  destruct (H1 fuel limit ltac:(lia) Hlim 0 [] [] _ _ _ _ knows_nothing) as (number1 & w1 & names1 & facts1 & rules1 & E1 & K1). cbn [app] in E1, K1.
  destruct (H2 fuel limit ltac:(lia) ltac:(lia) Hr number1 w1 names1 facts1 rules1 K1 0 []) as (replies & number2 & E2 & Hrs).
  assert (T1 : teaching = mkWorld (past1 []) 0 cooper_start) by (unfold teaching; cbn [after_parses fold_left]; reflexivity).
  assert (T2 : grammar_rules grammar2 = past2 []) by (cbn [after_parses fold_left]; reflexivity).
  eexists _, replies. split; [rewrite T1; exact E1|]. cbn [sw_model]. rewrite T2, E2. cbn [fst snd sw_model]. split; [reflexivity|]. split; [reflexivity|exact Hrs].
Qed.
Print Assumptions C103_taught_then_asked.

(** there is one right reply *)
Theorem C103_one_right_reply : forall lessons_given name q v r1 r2,
  right_reply lessons_given name q v r1 -> right_reply lessons_given name q v r2 -> r1 = r2.
Proof. intros L name q v r1 r2 [] []; try reflexivity; destruct v; cbn [negb] in *; contradiction. Qed.
Print Assumptions C103_one_right_reply.

(** ** a dialog *)
Definition some_lessons : list lesson := [Tell "copper" "metal"; Tell "copper" "element"; Learn "metal" "nonmetal" false; Tell "sulfuric acid" "compound"; Learn "element" "compound" false].
Definition lesson_texts : list string := ["copper is a metal"; "copper  IS an Element"; "no metal is a nonmetal"; "sulfuric acid is a compound"; "an element is not a compound"].
Definition some_questions : list question := [Ask "copper" "nonmetal" true; Ask "copper" "compound" false; Ask "sulfuric acid" "element" true; Ask "sulfuric acid" "compound" true].
Definition question_texts : list string := ["copper is a nonmetal"; "copper is not a compound"; "sulfuric acid is an element"; "sulfuric acid is compound"].
Ltac named_words := split; [discriminate|split; [reflexivity|split; [reflexivity|intros X; cbn in X; repeat (destruct X as [X|X]; [discriminate X|]); exact X]]].
Ltac listed := solve [cbn; auto 40].
Example lessons_are_given : Forall2 gives lesson_texts some_lessons.
Proof.
  assert (W1 : name_word "copper") by named_words. assert (W2 : name_word "sulfuric") by named_words. assert (W3 : name_word "acid") by named_words.
  repeat apply Forall2_cons; [..|apply Forall2_nil].
  - exists ["copper"], ["is"; "a"; "metal"]. split; [apply tell_words; [now constructor|listed|listed]|]. exists ["is"; "a"; "metal"]. split; reflexivity.
  - exists ["copper"], ["is"; "an"; "element"]. split; [apply tell_words; [now constructor|listed|listed]|]. exists ["IS"; "an"; "Element"]. split; reflexivity.
  - exists [], ["no"; "metal"; "is"; "a"; "nonmetal"]. split; [apply no_words; listed|]. exists ["no"; "metal"; "is"; "a"; "nonmetal"]. split; reflexivity.
  - exists ["sulfuric"; "acid"], ["is"; "a"; "compound"]. split; [apply tell_words; [now apply (two_words "sulfuric" "acid")|listed|listed]|]. exists ["is"; "a"; "compound"]. split; reflexivity.
  - exists [], ["an"; "element"; "is"; "not"; "a"; "compound"]. split; [apply a_not_words; listed|]. exists ["an"; "element"; "is"; "not"; "a"; "compound"]. split; reflexivity.
Qed.
Example questions_are_posed : Forall2 poses question_texts some_questions.
Proof.
  assert (W1 : name_word "copper") by named_words. assert (W2 : name_word "sulfuric") by named_words. assert (W3 : name_word "acid") by named_words.
  repeat apply Forall2_cons; [..|apply Forall2_nil].
  - exists ["copper"], "nonmetal", ["is"; "a"; "nonmetal"]. split; [now constructor|]. split; [listed|]. split; [apply is_a; listed|]. exists ["is"; "a"; "nonmetal"]. split; reflexivity.
  - exists ["copper"], "compound", ["is"; "not"; "a"; "compound"]. split; [now constructor|]. split; [listed|]. split; [apply is_not_a; listed|]. exists ["is"; "not"; "a"; "compound"]. split; reflexivity.
  - exists ["sulfuric"; "acid"], "element", ["is"; "an"; "element"]. split; [now apply (two_words "sulfuric" "acid")|]. split; [listed|]. split; [apply is_a; listed|]. exists ["is"; "an"; "element"]. split; reflexivity.
  - exists ["sulfuric"; "acid"], "compound", ["is"; "compound"]. split; [now apply (two_words "sulfuric" "acid")|]. split; [listed|]. split; [apply is_|]. exists ["is"; "compound"]. split; reflexivity.
Qed.
Example no_circles : forall A B v, In (Learn A B v) some_lessons -> (fun (_ : string) (u : bool) => if u then 0 else 1) A true < (fun (_ : string) (u : bool) => if u then 0 else 1) B v.
Proof. intros A B v H. cbn in H. repeat (destruct H as [H|H]; [try discriminate H; injection H as <- <- <-; cbn; lia|]). destruct H. Qed.
Example copper_is_not_a_nonmetal : holds some_lessons "copper" "nonmetal" false.
Proof. apply by_rule with "metal"; [cbn; auto 10|]. apply was_told. cbn. auto. Qed.
Example the_dialog : let after := snd (dialog 2000 60 lesson_texts teaching) in
  fst (dialog 2000 60 lesson_texts teaching) = repeat (Ok (VStr "OK")) 5 /\
  fst (dialog 2000 60 question_texts (mkWorld (grammar_rules grammar2) 0 (sw_model after))) = map (fun r => Ok (VStr r)) ["False"; "True"; "Unable to answer"; "True"].
Proof. vm_compute. split; reflexivity. Qed.
