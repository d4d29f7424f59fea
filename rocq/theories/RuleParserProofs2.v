(** * The parser of inference rules terminates, and its fuel does not matter *)

From Coq Require Import ZArith QArith String Ascii List Bool Arith Lia.
From Verif Require Import Py Effects Earley InferenceModule Lexer LexerProofs GrammarParser InferenceRuleParser RuleParserProofs.
Import ListNotations.
Local Close Scope Q_scope.
Local Open Scope nat_scope.
Local Open Scope string_scope.
Local Open Scope list_scope.

(** ** more fuel does not change a result *)
Definition le_out {A} (a b : outcome A) : Prop := a = OutOfFuel \/ a = b.
Lemma le_refl_out {A} (a : outcome A) : le_out a a.
Proof. right. reflexivity. Qed.
Lemma le_bind {A B} (a b : outcome A) (f g : A -> outcome B) :
  le_out a b -> (forall x, le_out (f x) (g x)) -> le_out (obind a f) (obind b g).
Proof. intros [->|<-] H; [left; reflexivity|]. destruct a; cbn [obind]; [apply H|apply le_refl_out|apply le_refl_out]. Qed.

Ltac mono IH :=
  repeat first
    [ apply le_refl_out
    | apply IH
    | apply le_bind; [apply IH|intros]
    | match goal with
      | |- le_out (match ?x with _ => _ end) (match ?x with _ => _ end) => destruct x
      | |- le_out (let _ := _ in _) _ => cbv zeta
      end ].

Lemma more_fuel n : forall ts,
  le_out (parse_term n ts) (parse_term (S n) ts) /\
  le_out (parse_terms n ts) (parse_terms (S n) ts) /\
  le_out (parse_simple_atom n ts) (parse_simple_atom (S n) ts) /\
  le_out (parse_atom n ts) (parse_atom (S n) ts) /\
  le_out (parse_disjuncted_atom n ts) (parse_disjuncted_atom (S n) ts) /\
  le_out (parse_disjuncts n ts) (parse_disjuncts (S n) ts) /\
  le_out (parse_atoms n ts) (parse_atoms (S n) ts) /\
  le_out (parse_grouped_atoms n ts) (parse_grouped_atoms (S n) ts) /\
  le_out (parse_ungrouped_atoms n ts) (parse_ungrouped_atoms (S n) ts).
Proof.
  induction n as [|n IH]; intros ts.
  { repeat match goal with |- _ /\ _ => split end; left; reflexivity. }
  split; [|split; [|split; [|split; [|split; [|split; [|split; [|split]]]]]]].
  - change (parse_term (S (S n)) ts) with
      (match next_token ts with
      | None => Exn TypeErr
      | Some (t, rest) =>
          if Ascii.eqb (first_char t) quote1 then Ok (Some (VStr (unescape quote1 (inside t)), rest))
          else if Ascii.eqb (first_char t) quote2 then Ok (Some (VStr (unescape quote2 (inside t)), rest))
          else match float_parts t with
          | Some (a, b) => Ok (Some (VFloat (float_of_parts a b), rest))
          | None =>
              if is_int t then Ok (Some (VInt (int_of_digits t), rest))
              else if is_variable t then Ok (Some (VVar t, rest))
              else obind (parse_atoms (S n) ts) (fun r => Ok (match r with Some (l, rest') => Some (VList l, rest') | None => None end))
          end
      end).
    remember (S n) as m. rewrite Heqm at 1. cbn [parse_term]. subst m. mono IH.
  - remember (S n) as m. rewrite Heqm at 1. cbn [parse_terms]. subst m. mono IH.
  - remember (S n) as m. rewrite Heqm at 1. cbn [parse_simple_atom]. subst m. mono IH.
  - remember (S n) as m. rewrite Heqm at 1. cbn [parse_atom]. subst m. mono IH.
  - remember (S n) as m. rewrite Heqm at 1. cbn [parse_disjuncted_atom]. subst m. mono IH.
  - remember (S n) as m. rewrite Heqm at 1. cbn [parse_disjuncts]. subst m. mono IH.
  - remember (S n) as m. rewrite Heqm at 1. cbn [parse_atoms]. subst m. mono IH.
  - remember (S n) as m. rewrite Heqm at 1. cbn [parse_grouped_atoms]. subst m. mono IH.
  - remember (S n) as m. rewrite Heqm at 1. cbn [parse_ungrouped_atoms]. subst m. mono IH.
Qed.
Lemma rule_more_fuel n ts : le_out (parse_rule n ts) (parse_rule (S n) ts).
Proof.
  unfold parse_rule. apply le_bind; [apply more_fuel|]. intros [[h s]|]; [|apply le_refl_out].
  apply le_bind; [|intros; apply le_refl_out]. destruct (expect ":-" s); [apply more_fuel|apply le_refl_out].
Qed.
Lemma list_more_fuel n m : forall ts, le_out (parse_rule_list n m ts) (parse_rule_list (S n) (S m) ts).
Proof.
  induction m as [|m IH]; intros ts; [left; reflexivity|]. remember (S m) as k. rewrite Heqk at 1. cbn [parse_rule_list]. subst k.
  apply le_bind; [apply rule_more_fuel|]. intros [[r s]|]; [|apply le_refl_out]. apply le_bind; [apply IH|intros; apply le_refl_out].
Qed.
Lemma tokens_more_fuel n m ts : n <= m -> le_out (parse_tokens n ts) (parse_tokens m ts).
Proof.
  induction 1 as [|m _ IH]; [apply le_refl_out|]. destruct IH as [E|E]; [left; exact E|]. rewrite E.
  unfold parse_tokens. apply le_bind; [apply list_more_fuel|intros; apply le_refl_out].
Qed.

(** ** enough fuel *)
Definition size (ts : list string) : nat := length (strip ts).
Lemma eats_size a b l : eats a b l -> l <> [] -> size b < size a.
Proof. unfold eats, size. intros -> H. rewrite app_length. destruct l; [congruence|simpl; lia]. Qed.
Lemma eats_size_le a b l : eats a b l -> size b <= size a.
Proof. unfold eats, size. intros ->. rewrite app_length. lia. Qed.
Lemma expect_size t a b : expect t a = Some b -> size b < size a.
Proof. intros H. apply (eats_size a b [t]); [now apply expect_eats|discriminate]. Qed.
Lemma next_size t a b : next_token a = Some (t, b) -> size b < size a.
Proof. intros H. apply (eats_size a b [t]); [now apply next_token_eats|discriminate]. Qed.

Lemma bind_fuel {A B} (a : outcome A) (f : A -> outcome B) : a <> OutOfFuel -> (forall x, a = Ok x -> f x <> OutOfFuel) -> obind a f <> OutOfFuel.
Proof. destruct a as [x|e|]; cbn [obind]; intros H Hf; [apply Hf; reflexivity|discriminate|congruence]. Qed.

Lemma enough n : forall ts,
  (7 * size ts + 5 < n -> parse_term n ts <> OutOfFuel) /\
  (7 * size ts + 6 < n -> parse_terms n ts <> OutOfFuel) /\
  (7 * size ts + 1 < n -> parse_simple_atom n ts <> OutOfFuel) /\
  (7 * size ts + 2 < n -> parse_atom n ts <> OutOfFuel) /\
  (7 * size ts + 1 < n -> parse_disjuncted_atom n ts <> OutOfFuel) /\
  (7 * size ts + 5 < n -> parse_disjuncts n ts <> OutOfFuel) /\
  (7 * size ts + 4 < n -> parse_atoms n ts <> OutOfFuel) /\
  (7 * size ts + 3 < n -> parse_grouped_atoms n ts <> OutOfFuel) /\
  (7 * size ts + 3 < n -> parse_ungrouped_atoms n ts <> OutOfFuel).
Proof.
  induction n as [|n IH]; intros ts.
  { repeat match goal with |- _ /\ _ => split end; lia. }
  split; [|split; [|split; [|split; [|split; [|split; [|split; [|split]]]]]]]; intros HF.
  - cbn [parse_term]. destruct (next_token ts) as [[t r]|]; [|discriminate].
    destruct (Ascii.eqb (first_char t) quote1); [discriminate|]. destruct (Ascii.eqb (first_char t) quote2); [discriminate|].
    destruct (float_parts t) as [[]|]; [discriminate|]. destruct (is_int t); [discriminate|]. destruct (is_variable t); [discriminate|].
    apply bind_fuel; [apply IH; lia|discriminate].
  - cbn [parse_terms]. apply bind_fuel; [apply IH; lia|]. intros [[v s]|] E; [|discriminate]. destruct (term_true v) eqn:ET; [|discriminate].
    destruct (proj1 (proj1 (all_read n ts)) v s E ET) as (l & Hl & _ & He). pose proof (eats_size _ _ _ He Hl).
    destruct (expect "," s) as [s'|] eqn:EC; [|discriminate]. apply expect_size in EC. apply bind_fuel; [apply IH; lia|discriminate].
  - cbn [parse_simple_atom]. destruct (next_token ts) as [[t r]|] eqn:EN; [|discriminate]. apply next_size in EN.
    destruct (is_identifier t); [|discriminate]. destruct (expect "(" r) as [s|] eqn:EO; [|discriminate]. apply expect_size in EO.
    apply bind_fuel; [apply IH; lia|discriminate].
  - cbn [parse_atom]. apply bind_fuel; [apply IH; lia|]. intros [[v s]|] E; [discriminate|]. apply IH. lia.
  - cbn [parse_disjuncted_atom]. destruct (expect "(" ts) as [s|] eqn:EO; [|discriminate]. apply expect_size in EO.
    apply bind_fuel; [apply IH; lia|discriminate].
  - cbn [parse_disjuncts]. apply bind_fuel; [apply IH; lia|]. intros [[v s]|] E; [|discriminate].
    destruct (proj1 (proj1 (proj2 (proj2 (proj2 (proj2 (proj2 (proj2 (all_read n ts)))))))) v s E) as (l & Hl & _ & He). pose proof (eats_size _ _ _ He Hl).
    destruct (expect ";" s) as [s'|] eqn:EC; [|discriminate]. apply expect_size in EC. apply bind_fuel; [apply IH; lia|discriminate].
  - cbn [parse_atoms]. apply bind_fuel; [apply IH; lia|]. intros [[v s]|] E; [discriminate|]. apply IH. lia.
  - cbn [parse_grouped_atoms]. destruct (expect "(" ts) as [s|] eqn:EO; [|discriminate]. apply expect_size in EO.
    apply bind_fuel; [apply IH; lia|discriminate].
  - cbn [parse_ungrouped_atoms]. apply bind_fuel; [apply IH; lia|]. intros [[v s]|] E; [|discriminate].
    destruct (proj1 (proj1 (proj2 (proj2 (proj2 (all_read n ts))))) v s E) as (l & Hl & _ & He). pose proof (eats_size _ _ _ He Hl).
    destruct (expect "," s) as [s'|] eqn:EC; [|discriminate]. apply expect_size in EC. apply bind_fuel; [apply IH; lia|discriminate].
Qed.

(** ** whole rules *)
Lemma rule_reads n ts : reads ts (parse_rule n ts).
Proof.
  unfold reads, parse_rule. destruct (proj1 (proj2 (proj2 (all_read n ts)))) as [H1 H2].
  destruct (parse_simple_atom n ts) as [[[h s]|]|e|]; cbn [obind].
  - destruct (H1 h s eq_refl) as (l1 & Hne & Hz1 & He1). destruct (expect ":-" s) as [s'|] eqn:EI.
    + apply expect_eats in EI. assert (HE : eats ts s' (l1 ++ [":-"])) by (eapply eats_trans; eassumption).
      destruct (proj1 (proj2 (proj2 (proj2 (proj2 (proj2 (proj2 (all_read n s')))))))) as [H3 H4].
      destruct (parse_atoms n s') as [[[b q]|]|e|]; cbn [obind].
      * destruct (expect "." q) as [q'|] eqn:ED; [|split; [discriminate|intros e [=]]]. split; [|intros e [=]].
        apply expect_eats in ED. intros x rest [= _ <-]. destruct (H3 b q eq_refl) as (l2 & _ & Hz2 & He2).
        exists ((l1 ++ [":-"]) ++ l2 ++ ["."]). split; [destruct l1; discriminate|]. split.
        -- repeat apply no_zeros_app; try assumption; apply no_zeros_one, mark_not_zero; simpl; auto 8.
        -- eapply eats_trans; [exact HE|]. eapply eats_trans; eassumption.
      * split; [discriminate|intros e [=]].
      * split; [discriminate|]. intros e' [= <-]. destruct (H4 e eq_refl) as [-> H5]. split; [reflexivity|]. unfold eats in HE. rewrite HE. now apply open_end_app.
      * split; [discriminate|intros e [=]].
    + cbn [obind]. destruct (expect "." s) as [q'|] eqn:ED; [|split; [discriminate|intros e [=]]]. split; [|intros e [=]].
      apply expect_eats in ED. intros x rest [= _ <-]. exists (l1 ++ ["."]). split; [destruct l1; discriminate|]. split; [|eapply eats_trans; eassumption].
      apply no_zeros_app; [exact Hz1|]. apply no_zeros_one, mark_not_zero; simpl; auto.
  - split; [discriminate|intros e [=]].
  - split; [discriminate|]. intros e' [= <-]. apply (H2 e eq_refl).
  - split; [discriminate|intros e [=]].
Qed.
Lemma list_reads n m : forall ts,
  (forall l rest, parse_rule_list n m ts = Ok (l, rest) -> exists l, no_zeros l /\ eats ts rest l) /\
  exn_ok (open_end (strip ts)) (parse_rule_list n m ts).
Proof.
  induction m as [|m IH]; intros ts; [split; [discriminate|intros e [=]]|]. cbn [parse_rule_list].
  destruct (rule_reads n ts) as [H1 H2]. destruct (parse_rule n ts) as [[[r s]|]|e|]; cbn [obind].
  - destruct (H1 r s eq_refl) as (l1 & _ & Hz1 & He1). destruct (IH s) as [H3 H4].
    destruct (parse_rule_list n m s) as [[l q]|e|]; cbn [obind fst snd].
    + split; [|intros e [=]]. intros l' rest [= _ <-]. destruct (H3 l q eq_refl) as (l2 & Hz2 & He2). exists (l1 ++ l2).
      split; [now apply no_zeros_app|eapply eats_trans; eassumption].
    + split; [discriminate|]. intros e' [= <-]. destruct (H4 e eq_refl) as [-> H5]. split; [reflexivity|]. unfold eats in He1. rewrite He1. now apply open_end_app.
    + split; [discriminate|intros e [=]].
  - split; [|intros e [=]]. intros l rest [= _ <-]. exists []. split; [apply no_zeros_nil|apply eats_nil].
  - split; [discriminate|]. intros e' [= <-]. apply (H2 e eq_refl).
  - split; [discriminate|intros e [=]].
Qed.
Lemma rule_enough n ts : 7 * size ts + 5 < n -> parse_rule n ts <> OutOfFuel.
Proof.
  intros H. unfold parse_rule. apply bind_fuel; [apply enough; lia|]. intros [[h s]|] E; [|discriminate].
  destruct (proj1 (proj1 (proj2 (proj2 (all_read n ts)))) h s E) as (l & _ & _ & He). apply eats_size_le in He.
  apply bind_fuel; [|discriminate]. destruct (expect ":-" s) as [s'|] eqn:EI; [|discriminate]. apply expect_size in EI. apply enough. lia.
Qed.
Lemma list_enough n m : forall ts, 7 * size ts + 5 < n -> size ts < m -> parse_rule_list n m ts <> OutOfFuel.
Proof.
  induction m as [|m IH]; intros ts H1 H2; [lia|]. cbn [parse_rule_list]. apply bind_fuel; [now apply rule_enough|].
  intros [[r s]|] E; [|discriminate]. destruct (proj1 (rule_reads n ts) r s E) as (l & Hl & _ & He). pose proof (eats_size _ _ _ He Hl).
  apply bind_fuel; [apply IH; lia|discriminate].
Qed.
Lemma tokens_enough n ts : 7 * size ts + 5 < n -> parse_tokens n ts <> OutOfFuel.
Proof. intros H. unfold parse_tokens. apply bind_fuel; [apply list_enough; lia|discriminate]. Qed.

(** the rules *)
Lemma rule_solid n ts : res_ok (fun r => solid_atom (VTuple (ru_head r)) /\ exists l, ru_body r = VList l /\ Forall solid_atom l) (parse_rule n ts).
Proof.
  intros x rest. unfold parse_rule. pose proof (proj1 (proj2 (proj2 (results_solid n ts)))) as H1.
  destruct (parse_simple_atom n ts) as [[[h s]|]|e|]; cbn [obind]; try discriminate. specialize (H1 h s eq_refl). cbv beta in H1.
  destruct (expect ":-" s) as [s'|].
  - pose proof (proj1 (proj2 (proj2 (proj2 (proj2 (proj2 (proj2 (results_solid n s')))))))) as H2.
    destruct (parse_atoms n s') as [[[b q]|]|e|]; cbn [obind]; try discriminate. destruct (H2 b q eq_refl) as [_ Hb].
    destruct (expect "." q); [|discriminate]. intros [= <- _]. cbn. split; [exact H1|]. exists b. auto.
  - cbn [obind]. destruct (expect "." s); [|discriminate]. intros [= <- _]. cbn. split; [exact H1|]. exists []. auto.
Qed.
Lemma list_solid n m : forall ts l rest, parse_rule_list n m ts = Ok (l, rest) ->
  Forall (fun r => solid_atom (VTuple (ru_head r)) /\ exists l, ru_body r = VList l /\ Forall solid_atom l) l.
Proof.
  induction m as [|m IH]; intros ts l rest; [discriminate|]. cbn [parse_rule_list]. pose proof (rule_solid n ts) as HS.
  destruct (parse_rule n ts) as [[[r s]|]|e|]; cbn [obind]; try discriminate; [|intros [= <- _]; constructor].
  destruct (parse_rule_list n m s) as [[l' q]|e|] eqn:E; cbn [obind fst snd]; try discriminate. intros [= <- _].
  constructor; [apply (HS r s eq_refl)|apply (IH s l' q E)].
Qed.
