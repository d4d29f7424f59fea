(** * Property C107: which texts are files with inference rules *)

From Coq Require Import ZArith QArith Qreduction String Ascii List Bool Arith Lia.
From Verif Require Import Py Effects Earley InferenceModule Lexer LexerProofs GrammarParser InferenceRuleParser RuleParserProofs
  PropGrammarParser2 PropRuleParser.
Import ListNotations.
Local Close Scope Q_scope.
Local Open Scope nat_scope.
Local Open Scope string_scope.
Local Open Scope list_scope.

(** ** the notation

    The relations are between a row of tokens and what it stands for.
    [token_written q t s] (PropGrammarParser2.v): the token [t] is the text
    [s] between two [q]. *)

Definition row_of_digits (t : string) : Prop :=
  t <> "" /\ forall c, In c (list_ascii_of_string t) -> 48 <= nat_of_ascii c <= 57.
Definition zero (v : value) : Prop := v = VInt 0 \/ exists x, v = VFloat x /\ Qeq x 0.

(** an argument *)
Inductive term_is : list string -> value -> Prop :=
| ti_text q t s : q = quote1 \/ q = quote2 -> token_written q t s -> term_is [t] (VStr s)
| ti_int t : row_of_digits t -> term_is [t] (VInt (digits_value 0 t))
| ti_float a b : row_of_digits a -> row_of_digits b ->
    term_is [append a (append "." b)]
      (VFloat (Qred (inject_Z (digits_value 0 a) + inject_Z (digits_value 0 b) / inject_Z (10 ^ Z.of_nat (String.length b)))))
| ti_variable t : is_variable t = true -> term_is [t] (VVar t)
| ti_atoms ts l : atoms_are ts l -> term_is ts (VList l)
(** arguments, none of them zero, with commas between them; one more comma may
    follow the last *)
with terms_are : list string -> list value -> Prop :=
| ta_none : terms_are [] []
| ta_last ts v : term_is ts v -> ~ zero v -> terms_are ts [v]
| ta_more ts v us vs : term_is ts v -> ~ zero v -> terms_are us vs -> terms_are (ts ++ "," :: us) (v :: vs)
(** a predicate and its arguments *)
with simple_is : list string -> list value -> Prop :=
| si p ts vs : is_word p -> terms_are ts vs -> simple_is (p :: "(" :: ts ++ [")"]) (VStr p :: vs)
(** that, or alternatives between brackets *)
with atom_is : list string -> value -> Prop :=
| ai_simple ts l : simple_is ts l -> atom_is ts (VTuple l)
| ai_alternatives ts ds : alternatives_are ts ds -> atom_is ("(" :: ts ++ [")"]) (VTuple [VStr "$disjunction"; VList ds])
(** lists of atoms with semicolons between them *)
with alternatives_are : list string -> list value -> Prop :=
| da_last ts l : atoms_are ts l -> alternatives_are ts [VList l]
| da_more ts l us ds : atoms_are ts l -> alternatives_are us ds -> alternatives_are (ts ++ ";" :: us) (VList l :: ds)
(** atoms with commas between them; they may be between brackets, and these
    too *)
with atoms_are : list string -> list value -> Prop :=
| as_brackets ts l : atoms_are ts l -> atoms_are ("(" :: ts ++ [")"]) l
| as_last ts a : atom_is ts a -> atoms_are ts [a]
| as_more ts a us l : atom_is ts a -> row_are us l -> atoms_are (ts ++ "," :: us) (a :: l)
(** after a comma there are no brackets around the rest *)
with row_are : list string -> list value -> Prop :=
| ra_last ts a : atom_is ts a -> row_are ts [a]
| ra_more ts a us l : atom_is ts a -> row_are us l -> row_are (ts ++ "," :: us) (a :: l).

(** a fact or a rule *)
Inductive rule_is : list string -> rule -> Prop :=
| ri_fact ts l : simple_is ts l -> rule_is (ts ++ ["."]) (mkRule l (VList []))
| ri_rule ts l us b : simple_is ts l -> atoms_are us b -> rule_is (ts ++ ":-" :: us ++ ["."]) (mkRule l (VList b)).

(** ** proofs *)

Definition formed (t : string) : Prop :=
  forall q, q = quote1 \/ q = quote2 -> first_char t = q -> exists raw, raw <> "" /\ t = String q (append raw (String q "")).
Lemma rule_token_formed s k : rule_token s = S k -> formed (take (S k) s).
Proof.
  destruct s as [|c s]; [discriminate|]. intros H q Hq Hf. cbn [take first_char] in Hf. subst c.
  destruct Hq as [-> | ->]; apply quoted_take; exact H.
Qed.
Lemma rule_find_formed : forall s skip, Forall formed (find_from rule_token skip s).
Proof.
  induction s as [|c s IH]; intros skip; [constructor|]. cbn [find_from]. destruct skip as [|skip]; [|apply IH].
  destruct (rule_token (String c s)) as [|k] eqn:E; [apply IH|]. constructor; [now apply rule_token_formed|apply IH].
Qed.
Lemma strip_forall (P : string -> Prop) ts : Forall P ts -> Forall P (strip ts).
Proof. rewrite !Forall_forall. intros H t Ht. apply filter_In in Ht as [Ht _]. now apply H. Qed.

Lemma formed_token q t : q = quote1 \/ q = quote2 -> formed t -> first_char t = q -> token_written q t (unescape q (inside t)).
Proof.
  intros Hq HF Hf. destruct (HF q Hq Hf) as (raw & Hn & ->). rewrite inside_quotes. exists raw. split; [reflexivity|]. split; [exact Hn|].
  apply (unescape_unescaped q) with (n := String.length raw); [destruct Hq as [-> | ->]; discriminate|lia].
Qed.
Lemma is_int_row t : is_int t = true -> row_of_digits t.
Proof.
  unfold is_int. intros H. apply andb_true_iff in H as [H1 H2]. split; [intros ->; discriminate|]. clear H1.
  induction t as [|c t IH]; [intros c []|]. cbn [all_digits] in H2. apply andb_true_iff in H2 as [Hc Ht].
  intros d [<-|Hd]; [|now apply IH]. unfold digit_char in Hc. cbv zeta in Hc. apply andb_true_iff in Hc as [H1 H2].
  apply Nat.leb_le in H1. apply Nat.leb_le in H2. lia.
Qed.
Lemma true_not_zero v : term_true v = true -> ~ zero v.
Proof.
  intros H [->|(x & -> & Hx)]; [discriminate|]. cbn [term_true] in H. apply Qeq_bool_iff in Hx. rewrite Hx in H. discriminate.
Qed.

(** what is read stands for the result *)
Definition gives {A} (W : list string -> A -> Prop) (ts : list string) (o : parsed A) : Prop :=
  forall x rest, o = Ok (Some (x, rest)) -> exists l, eats ts rest l /\ W l x.

Lemma eats_formed a b l : eats a b l -> Forall formed (strip a) -> Forall formed (strip b).
Proof. unfold eats. intros ->. intros H. apply Forall_app in H. tauto. Qed.
Lemma eats_cons a b c t l : eats a b [t] -> eats b c l -> eats a c (t :: l).
Proof. intros H1 H2. exact (eats_trans _ _ _ _ _ H1 H2). Qed.

Lemma all_stand n : forall ts, Forall formed (strip ts) ->
  gives term_is ts (parse_term n ts) /\
  (forall vs rest, parse_terms n ts = Ok (vs, rest) -> exists l, eats ts rest l /\ terms_are l vs) /\
  gives simple_is ts (parse_simple_atom n ts) /\ gives atom_is ts (parse_atom n ts) /\ gives atom_is ts (parse_disjuncted_atom n ts) /\
  gives alternatives_are ts (parse_disjuncts n ts) /\ gives atoms_are ts (parse_atoms n ts) /\ gives atoms_are ts (parse_grouped_atoms n ts) /\
  gives row_are ts (parse_ungrouped_atoms n ts).
Proof.
  induction n as [|n IH]; intros ts HF.
  { unfold gives. repeat match goal with |- _ /\ _ => split end; intros; discriminate. }
  assert (IHt := fun ts H => proj1 (IH ts H)).
  assert (IHts := fun ts H => proj1 (proj2 (IH ts H))).
  assert (IHs := fun ts H => proj1 (proj2 (proj2 (IH ts H)))).
  assert (IHa := fun ts H => proj1 (proj2 (proj2 (proj2 (IH ts H))))).
  assert (IHd := fun ts H => proj1 (proj2 (proj2 (proj2 (proj2 (IH ts H)))))).
  assert (IHds := fun ts H => proj1 (proj2 (proj2 (proj2 (proj2 (proj2 (IH ts H))))))).
  assert (IHas := fun ts H => proj1 (proj2 (proj2 (proj2 (proj2 (proj2 (proj2 (IH ts H)))))))).
  assert (IHg := fun ts H => proj1 (proj2 (proj2 (proj2 (proj2 (proj2 (proj2 (proj2 (IH ts H))))))))).
  assert (IHu := fun ts H => proj2 (proj2 (proj2 (proj2 (proj2 (proj2 (proj2 (proj2 (IH ts H))))))))).
  clear IH. split; [|split; [|split; [|split; [|split; [|split; [|split; [|split]]]]]]].
  - intros v rest. cbn [parse_term]. destruct (next_token ts) as [[t r]|] eqn:EN; [|discriminate].
    pose proof (next_token_eats _ _ _ EN) as HE.
    assert (HT : formed t) by (unfold eats in HE; rewrite HE in HF; inversion HF; assumption).
    destruct (Ascii.eqb_spec (first_char t) quote1) as [E1|E1].
    { intros [= <- <-]. exists [t]. split; [exact HE|]. apply (ti_text quote1); [auto|]. apply formed_token; auto. }
    destruct (Ascii.eqb_spec (first_char t) quote2) as [E2|E2].
    { intros [= <- <-]. exists [t]. split; [exact HE|]. apply (ti_text quote2); [auto|]. apply formed_token; auto. }
    destruct (float_parts t) as [[a b]|] eqn:E3.
    { intros [= <- <-]. exists [t]. split; [exact HE|]. apply float_parts_sound in E3 as (Ha & Hb & ->).
      rewrite float_of_parts_value by assumption. constructor; now apply is_int_row. }
    destruct (is_int t) eqn:E4.
    { intros [= <- <-]. exists [t]. split; [exact HE|]. rewrite int_of_digits_value by assumption. constructor. now apply is_int_row. }
    destruct (is_variable t) eqn:E5.
    { intros [= <- <-]. exists [t]. split; [exact HE|]. now constructor. }
    pose proof (IHas ts HF) as H. destruct (parse_atoms n ts) as [[[l s]|]|e|]; cbn [obind]; try discriminate.
    intros [= <- <-]. destruct (H l s eq_refl) as (us & H1 & H2). exists us. split; [exact H1|]. now constructor.
  - intros vs rest. cbn [parse_terms]. pose proof (IHt ts HF) as H. destruct (parse_term n ts) as [[[v s]|]|e|]; cbn [obind]; try discriminate.
    2:{ intros [= <- <-]. exists []. split; [apply eats_nil|constructor]. }
    destruct (term_true v) eqn:ET.
    2:{ intros [= <- <-]. exists []. split; [apply eats_nil|constructor]. }
    apply true_not_zero in ET. destruct (H v s eq_refl) as (l1 & He1 & Hw1).
    destruct (expect "," s) as [s'|] eqn:EC.
    + apply expect_eats in EC. pose proof (IHts s' (eats_formed _ _ _ EC (eats_formed _ _ _ He1 HF))) as H3.
      destruct (parse_terms n s') as [[l q]|e|]; cbn [obind fst snd]; try discriminate.
      intros [= <- <-]. destruct (H3 l q eq_refl) as (l2 & He2 & Hw2). exists (l1 ++ "," :: l2).
      split; [|now constructor]. eapply eats_trans; [exact He1|]. eapply eats_cons; eassumption.
    + intros [= <- <-]. exists l1. split; [exact He1|]. now constructor.
  - intros l rest. cbn [parse_simple_atom]. destruct (next_token ts) as [[t r]|] eqn:EN; [|discriminate].
    apply next_token_eats in EN. destruct (is_identifier t) eqn:EI; [|discriminate]. apply identifier_word in EI.
    destruct (expect "(" r) as [s|] eqn:EO; [|discriminate]. apply expect_eats in EO.
    pose proof (IHts s (eats_formed _ _ _ EO (eats_formed _ _ _ EN HF))) as H.
    destruct (parse_terms n s) as [[vs q]|e|]; cbn [obind fst snd]; try discriminate.
    destruct (expect ")" q) as [q'|] eqn:EC; [|discriminate]. apply expect_eats in EC. intros [= <- <-].
    destruct (H vs q eq_refl) as (l1 & He & Hw). exists (t :: "(" :: l1 ++ [")"]). split; [|now constructor].
    eapply eats_cons; [exact EN|]. eapply eats_cons; [exact EO|]. eapply eats_trans; eassumption.
  - intros v rest. cbn [parse_atom]. pose proof (IHs ts HF) as H1. pose proof (IHd ts HF) as H2.
    destruct (parse_simple_atom n ts) as [[[l s]|]|e|]; cbn [obind]; try discriminate; [|apply H2].
    intros [= <- <-]. destruct (H1 l s eq_refl) as (us & He & Hw). exists us. split; [exact He|]. now constructor.
  - intros v rest. cbn [parse_disjuncted_atom]. destruct (expect "(" ts) as [s|] eqn:EO; [|discriminate].
    apply expect_eats in EO. pose proof (IHds s (eats_formed _ _ _ EO HF)) as H.
    destruct (parse_disjuncts n s) as [[[ds q]|]|e|]; cbn [obind]; try discriminate.
    destruct (expect ")" q) as [q'|] eqn:EC; [|discriminate]. apply expect_eats in EC. intros [= <- <-].
    destruct (H ds q eq_refl) as (l1 & He & Hw). exists ("(" :: l1 ++ [")"]). split; [|now constructor].
    eapply eats_cons; [exact EO|]. eapply eats_trans; eassumption.
  - intros ds rest. cbn [parse_disjuncts]. pose proof (IHas ts HF) as H. destruct (parse_atoms n ts) as [[[l s]|]|e|]; cbn [obind]; try discriminate.
    destruct (H l s eq_refl) as (l1 & He1 & Hw1). destruct (expect ";" s) as [s'|] eqn:EC.
    + apply expect_eats in EC. pose proof (IHds s' (eats_formed _ _ _ EC (eats_formed _ _ _ He1 HF))) as H3.
      destruct (parse_disjuncts n s') as [[[ds' q]|]|e|]; cbn [obind]; try discriminate. intros [= <- <-].
      destruct (H3 ds' q eq_refl) as (l2 & He2 & Hw2). exists (l1 ++ ";" :: l2). split; [|now constructor].
      eapply eats_trans; [exact He1|]. eapply eats_cons; eassumption.
    + intros [= <- <-]. exists l1. split; [exact He1|]. now constructor.
  - intros l rest. cbn [parse_atoms]. pose proof (IHg ts HF) as H1. pose proof (IHu ts HF) as H2.
    destruct (parse_grouped_atoms n ts) as [[[l' s]|]|e|]; cbn [obind]; try discriminate.
    + intros [= <- <-]. apply (H1 l' s eq_refl).
    + intros H. destruct (H2 l rest H) as (us & He & Hw). exists us. split; [exact He|]. inversion Hw; subst; now constructor.
  - intros l rest. cbn [parse_grouped_atoms]. destruct (expect "(" ts) as [s|] eqn:EO; [|discriminate].
    apply expect_eats in EO. pose proof (IHas s (eats_formed _ _ _ EO HF)) as H.
    destruct (parse_atoms n s) as [[[l' q]|]|e|]; cbn [obind]; try discriminate.
    destruct (expect ")" q) as [q'|] eqn:EC; [|discriminate]. apply expect_eats in EC. intros [= <- <-].
    destruct (H l' q eq_refl) as (l1 & He & Hw). exists ("(" :: l1 ++ [")"]). split; [|now constructor].
    eapply eats_cons; [exact EO|]. eapply eats_trans; eassumption.
  - intros l rest. cbn [parse_ungrouped_atoms]. pose proof (IHa ts HF) as H. destruct (parse_atom n ts) as [[[a s]|]|e|]; cbn [obind]; try discriminate.
    destruct (H a s eq_refl) as (l1 & He1 & Hw1). destruct (expect "," s) as [s'|] eqn:EC.
    + apply expect_eats in EC. pose proof (IHu s' (eats_formed _ _ _ EC (eats_formed _ _ _ He1 HF))) as H3.
      destruct (parse_ungrouped_atoms n s') as [[[l' q]|]|e|]; cbn [obind]; try discriminate. intros [= <- <-].
      destruct (H3 l' q eq_refl) as (l2 & He2 & Hw2). exists (l1 ++ "," :: l2). split; [|now constructor].
      eapply eats_trans; [exact He1|]. eapply eats_cons; eassumption.
    + intros [= <- <-]. exists l1. split; [exact He1|]. now constructor.
Qed.

Lemma rule_stands n ts : Forall formed (strip ts) -> gives rule_is ts (parse_rule n ts).
Proof.
  intros HF r rest. unfold parse_rule.
  pose proof (proj1 (proj2 (proj2 (all_stand n ts HF)))) as H1.
  destruct (parse_simple_atom n ts) as [[[l s]|]|e|]; cbn [obind]; try discriminate.
  destruct (H1 l s eq_refl) as (l1 & He1 & Hw1). destruct (expect ":-" s) as [s'|] eqn:EC.
  - apply expect_eats in EC. pose proof (eats_formed _ _ _ EC (eats_formed _ _ _ He1 HF)) as HF'.
    pose proof (proj1 (proj2 (proj2 (proj2 (proj2 (proj2 (proj2 (all_stand n s' HF')))))))) as H2.
    destruct (parse_atoms n s') as [[[b q]|]|e|]; cbn [obind]; try discriminate.
    destruct (expect "." q) as [q'|] eqn:ED; [|discriminate]. apply expect_eats in ED. intros [= <- <-].
    destruct (H2 b q eq_refl) as (l2 & He2 & Hw2). exists (l1 ++ ":-" :: l2 ++ ["."]). split; [|now constructor].
    eapply eats_trans; [exact He1|]. eapply eats_cons; [exact EC|]. eapply eats_trans; eassumption.
  - cbn [obind]. destruct (expect "." s) as [q'|] eqn:ED; [|discriminate]. apply expect_eats in ED. intros [= <- <-].
    exists (l1 ++ ["."]). split; [|now constructor]. eapply eats_trans; eassumption.
Qed.
Lemma rule_list_stands n m : forall ts rs rest, Forall formed (strip ts) -> parse_rule_list n m ts = Ok (rs, rest) ->
  exists parts, eats ts rest (concat parts) /\ Forall2 rule_is parts rs.
Proof.
  induction m as [|m IH]; intros ts rs rest HF; [discriminate|]. cbn [parse_rule_list]. pose proof (rule_stands n ts HF) as H.
  destruct (parse_rule n ts) as [[[r s]|]|e|]; cbn [obind]; try discriminate.
  - destruct (H r s eq_refl) as (l1 & He1 & Hw1). pose proof (IH s) as H2.
    destruct (parse_rule_list n m s) as [[rs' q]|e|]; cbn [obind fst snd]; try discriminate. intros [= <- <-].
    destruct (H2 rs' q (eats_formed _ _ _ He1 HF) eq_refl) as (parts & He2 & Hw2). exists (l1 :: parts). split; [|now constructor].
    cbn [concat]. eapply eats_trans; eassumption.
  - intros [= <- <-]. exists []. split; [apply eats_nil|constructor].
Qed.

(** ** the theorems *)

(** Only texts in the notation are accepted, and the rules are what the text
    says: leaving out its comments, the tokens of the text are those of one
    rule after the other, and each result stands for its own tokens.  Nothing
    in the text is passed over, and no rule is made up. *)
Theorem C107_rules_are_as_written :
  forall n text rules, parse_rules n text = Ok (Some rules) ->
    exists parts, filter (fun t => negb (Ascii.eqb (first_char t) "#")) (findall rule_token text) = concat parts /\
      Forall2 rule_is parts rules.
Proof.
  intros n text rules. unfold parse_rules. set (ts := findall rule_token text).
  assert (HF : Forall formed (strip ts)) by (apply strip_forall, rule_find_formed).
  destruct (parse_rule_list n n ts) as [[rs q]|e|] eqn:E; cbn [obind fst snd]; try discriminate.
  destruct (next_token q) eqn:EN; [discriminate|]. intros [= <-].
  destruct (rule_list_stands _ _ _ _ _ HF E) as (parts & He & Hw). exists parts. split; [|exact Hw].
  unfold eats in He. rewrite (next_token_none q EN), app_nil_r in He. exact He.
Qed.
Print Assumptions C107_rules_are_as_written.

(** ** what follows for the rules *)

Scheme term_is_m := Induction for term_is Sort Prop
with terms_are_m := Induction for terms_are Sort Prop
with simple_is_m := Induction for simple_is Sort Prop
with atom_is_m := Induction for atom_is Sort Prop
with alternatives_are_m := Induction for alternatives_are Sort Prop
with atoms_are_m := Induction for atoms_are Sort Prop
with row_are_m := Induction for row_are Sort Prop.

Definition count (t : string) (l : list string) : nat := count_occ string_dec l t.
(** as many brackets are closed as are opened, and there is no full stop *)
Definition even (l : list string) : Prop := count "." l = 0 /\ count "(" l = count ")" l.

Lemma even_app a b : even a -> even b -> even (a ++ b).
Proof. unfold even, count. rewrite !count_occ_app. lia. Qed.
Lemma even_one t : t <> "." -> t <> "(" -> t <> ")" -> even [t].
Proof.
  intros H1 H2 H3. unfold even, count. rewrite !count_occ_cons_neq by assumption. split; reflexivity.
Qed.
Lemma even_brackets l : even l -> even ("(" :: l ++ [")"]).
Proof.
  unfold even, count. rewrite (count_occ_cons_neq _ (l ++ [")"]) (x := "(") (y := ".")) by discriminate.
  rewrite (count_occ_cons_eq _ (l ++ [")"]) (x := "(") (y := "(") eq_refl).
  rewrite (count_occ_cons_neq _ (l ++ [")"]) (x := "(") (y := ")")) by discriminate.
  rewrite !count_occ_app. cbn. lia.
Qed.
Lemma even_between a t b : In t [","; ";"; ":-"] -> even a -> even b -> even (a ++ t :: b).
Proof.
  intros Ht Ha Hb. apply even_app; [exact Ha|]. change (t :: b) with ([t] ++ b). apply even_app; [|exact Hb].
  simpl in Ht. destruct Ht as [<-|[<-|[<-|[]]]]; apply even_one; discriminate.
Qed.
Lemma word_even p : is_word p -> even [p].
Proof. intros [_ H]. apply even_one; intros ->; discriminate. Qed.
Lemma quoted_even q t s : q = quote1 \/ q = quote2 -> token_written q t s -> even [t].
Proof. intros Hq (raw & -> & _ & _). apply even_one; intros E; injection E as E _; destruct Hq; subst q; discriminate. Qed.
Lemma digits_first c t : row_of_digits (String c t) -> 48 <= nat_of_ascii c <= 57.
Proof. intros [_ H]. apply H. now left. Qed.
Lemma digits_even t u : row_of_digits t -> even [append t u].
Proof.
  intros H. destruct t as [|c t]; [destruct H as [H _]; congruence|]. apply digits_first in H. cbn [append].
  apply even_one; intros E; injection E as -> _; vm_compute in H; lia.
Qed.
Lemma str_app_nil t : append t "" = t.
Proof. induction t as [|c t IH]; [reflexivity|]. cbn [append]. now rewrite IH. Qed.
Lemma variable_even t : is_variable t = true -> even [t].
Proof. intros H. apply even_one; intros ->; discriminate. Qed.

Ltac evens :=
  intros; try exact I; auto using word_even, variable_even, even_brackets;
  try (split; reflexivity);
  try (apply even_between; [simpl; auto|assumption|assumption]).
Lemma simple_even ts l : simple_is ts l -> even ts.
Proof.
  apply (simple_is_m (fun ts _ _ => even ts) (fun ts _ _ => even ts) (fun ts _ _ => even ts) (fun ts _ _ => even ts)
    (fun ts _ _ => even ts) (fun ts _ _ => even ts) (fun ts _ _ => even ts)); evens.
  - eapply quoted_even; eassumption.
  - rewrite <- (str_app_nil t). now apply digits_even.
  - now apply digits_even.
  - change (even ([p] ++ "(" :: ts0 ++ [")"])). apply even_app; [now apply word_even|]. now apply even_brackets.
Qed.
Lemma atoms_even ts l : atoms_are ts l -> even ts.
Proof.
  apply (atoms_are_m (fun ts _ _ => even ts) (fun ts _ _ => even ts) (fun ts _ _ => even ts) (fun ts _ _ => even ts)
    (fun ts _ _ => even ts) (fun ts _ _ => even ts) (fun ts _ _ => even ts)); evens.
  - eapply quoted_even; eassumption.
  - rewrite <- (str_app_nil t). now apply digits_even.
  - now apply digits_even.
  - change (even ([p] ++ "(" :: ts0 ++ [")"])). apply even_app; [now apply word_even|]. now apply even_brackets.
Qed.
Lemma rule_counts ts r : rule_is ts r -> count "." ts = 1 /\ count "(" ts = count ")" ts /\ exists us, ts = us ++ ["."].
Proof.
  assert (H : forall us, even us -> count "." (us ++ ["."]) = 1 /\ count "(" (us ++ ["."]) = count ")" (us ++ ["."]) /\ exists vs, us ++ ["."] = vs ++ ["."]).
  { intros us [H1 H2]. unfold count in *. rewrite !count_occ_app. cbn. repeat split; [lia|lia|now exists us]. }
  intros [ts' l Hs|ts' l us b Hs Ha].
  - apply H. eapply simple_even, Hs.
  - change (ts' ++ ":-" :: us ++ ["."]) with (ts' ++ (":-" :: us) ++ ["."]). rewrite app_assoc. apply H.
    apply even_between; [simpl; auto|eapply simple_even, Hs|eapply atoms_even, Ha].
Qed.

(** Every rule ends with a full stop and there are no others: the number of
    rules is the number of full stops.  Each bracket that is opened is closed,
    and the last token of a file with rules is a full stop. *)
Theorem C107_full_stops_and_brackets :
  forall n text rules, parse_rules n text = Ok (Some rules) ->
    let tokens := filter (fun t => negb (Ascii.eqb (first_char t) "#")) (findall rule_token text) in
    count_occ string_dec tokens "." = length rules /\
    count_occ string_dec tokens "(" = count_occ string_dec tokens ")" /\
    (rules = [] /\ tokens = [] \/ exists ts, tokens = ts ++ ["."]).
Proof.
  intros n text rules H. cbv zeta. destruct (C107_rules_are_as_written n text rules H) as (parts & -> & HW). clear H.
  induction HW as [|ts r parts rules Hr _ IH]; [split; [reflexivity|split; [reflexivity|left; split; reflexivity]]|].
  destruct (rule_counts ts r Hr) as (H1 & H2 & us & Hu). unfold count in *. cbn [concat length]. rewrite !count_occ_app.
  destruct IH as (H3 & H4 & H5). split; [lia|]. split; [lia|]. right.
  destruct H5 as [[_ ->]|[vs ->]]; [rewrite app_nil_r; now exists us|]. exists (ts ++ vs). apply app_assoc.
Qed.
Print Assumptions C107_full_stops_and_brackets.

(** A file with a text that has no meaning in it adds nothing: what is not in
    the notation is refused as a whole, or raises. *)
Theorem C107_other_texts_are_refused :
  forall n text,
    (forall parts rules, filter (fun t => negb (Ascii.eqb (first_char t) "#")) (findall rule_token text) = concat parts ->
       ~ Forall2 rule_is parts rules) ->
    forall W (L : lens W rulebase) w, let (r, w') := import_rules L n text w in
      w' = w /\ (r = Exn (Raise "Unable to parse inference") \/ r = Exn TypeErr \/ r = OutOfFuel).
Proof.
  intros n text H W L w. unfold import_rules.
  assert (HN : forall rs, parse_rules n text <> Ok (Some rs)).
  { intros rs E. destruct (C107_rules_are_as_written _ _ _ E) as (parts & E1 & E2). exact (H _ _ E1 E2). }
  pose proof (C94_only_unfinished_texts_raise text n) as HE.
  destruct (parse_rules n text) as [[rs|]|e|]; [destruct (HN rs eq_refl)|split; auto| |split; auto].
  destruct (HE e eq_refl) as [-> _]. split; auto.
Qed.
Print Assumptions C107_other_texts_are_refused.

Example C107_example :
  parse_rules 400 "p('a', 3). # so
 q(X, 1.5,) :- (p(X); r(X, 'b'), s(p(X)))." =
    Ok (Some [mkRule [VStr "p"; VStr "a"; VInt 3] (VList []);
              mkRule [VStr "q"; VVar "X"; VFloat (3 # 2)]
                (VList [VTuple [VStr "$disjunction";
                  VList [VList [VTuple [VStr "p"; VVar "X"]];
                         VList [VTuple [VStr "r"; VVar "X"; VStr "b"];
                                VTuple [VStr "s"; VList [VTuple [VStr "p"; VVar "X"]]]]]]])]) /\
  parse_rules 400 "p('a') q('b')." = Ok None /\ parse_rules 400 "p('a'). q" = Ok None /\
  parse_rules 400 "(p('a'))." = Ok None /\ parse_rules 400 "p('a'). +" = Ok (Some [mkRule [VStr "p"; VStr "a"] (VList [])]).
Proof. vm_compute. repeat split. Qed.
(** such a text *)
Example C107_refused_example :
  forall parts rules, filter (fun t => negb (Ascii.eqb (first_char t) "#")) (findall rule_token "p('a'). q('b'") = concat parts ->
    ~ Forall2 rule_is parts rules.
Proof.
  intros parts rules E HW.
  assert (H : count "(" (concat parts) = count ")" (concat parts)).
  { clear E. induction HW as [|ts r parts rules Hr _ IH]; [reflexivity|]. destruct (rule_counts ts r Hr) as (_ & H & _).
    unfold count in *. cbn [concat]. rewrite !count_occ_app. lia. }
  rewrite <- E in H. vm_compute in H. discriminate.
Qed.
