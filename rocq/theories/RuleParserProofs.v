(** * Lemmas about the parser of inference rules *)

From Coq Require Import ZArith QArith Qreduction String Ascii List Bool Arith Lia DecimalString Decimal.
From Verif Require Import Py Effects Earley InferenceModule Lexer LexerProofs GrammarParser InferenceRuleParser.
Import ListNotations.
Local Close Scope Q_scope.
Local Open Scope nat_scope.
Local Open Scope string_scope.
Local Open Scope list_scope.

(** ** comments *)
Definition is_comment (t : string) : bool := Ascii.eqb (first_char t) "#".
Definition strip (ts : list string) : list string := filter (fun t => negb (is_comment t)) ts.
(** the same tokens but for comments *)
Definition same (a b : list string) : Prop := strip a = strip b.

Lemma next_token_strip ts :
  match next_token ts with
  | None => strip ts = []
  | Some (t, rest) => strip ts = t :: strip rest /\ is_comment t = false
  end.
Proof.
  induction ts as [|t ts IH]; [reflexivity|]. cbn [next_token strip filter]. fold (strip ts).
  change (Ascii.eqb (first_char t) "#") with (is_comment t).
  destruct (is_comment t) eqn:E; cbn [negb]; [exact IH|]. split; [reflexivity|exact E].
Qed.
Lemma next_token_same a b : same a b ->
  match next_token a, next_token b with
  | None, None => True
  | Some (t, r), Some (t', r') => t = t' /\ same r r'
  | _, _ => False
  end.
Proof.
  unfold same. intros H. pose proof (next_token_strip a) as Ha. pose proof (next_token_strip b) as Hb. rewrite H in Ha.
  destruct (next_token a) as [[t r]|], (next_token b) as [[t' r']|].
  - destruct Ha as [Ha _], Hb as [Hb _]. rewrite Ha in Hb. injection Hb as H1 H2. auto.
  - destruct Ha as [Ha _]. congruence.
  - destruct Hb as [Hb _]. congruence.
  - exact I.
Qed.
Definition opt_rel {A B} (R : A -> B -> Prop) (a : option A) (b : option B) : Prop :=
  match a, b with Some x, Some y => R x y | None, None => True | _, _ => False end.
Definition out_rel {A B} (R : A -> B -> Prop) (a : outcome A) (b : outcome B) : Prop :=
  match a, b with Ok x, Ok y => R x y | Exn e, Exn e' => e = e' | OutOfFuel, OutOfFuel => True | _, _ => False end.
Definition rest_rel {A} (x y : A * list string) : Prop := fst x = fst y /\ same (snd x) (snd y).
Definition parsed_rel {A} (a b : parsed A) : Prop := out_rel (opt_rel rest_rel) a b.

Lemma out_bind {A B C D} (R : A -> B -> Prop) (R' : C -> D -> Prop) a b f g :
  out_rel R a b -> (forall x y, R x y -> out_rel R' (f x) (g y)) -> out_rel R' (obind a f) (obind b g).
Proof. destruct a, b; simpl; intros H Hf; auto; try contradiction. Qed.
Lemma expect_same t a b : same a b -> opt_rel same (expect t a) (expect t b).
Proof.
  intros H. unfold expect. pose proof (next_token_same a b H) as HN.
  destruct (next_token a) as [[x r]|], (next_token b) as [[x' r']|]; try contradiction; [|exact I].
  destruct HN as [<- HN]. destruct (String.eqb x t); [exact HN|exact I].
Qed.

Ltac on_expect t H :=
  let E := fresh "HE" in pose proof (expect_same t _ _ H) as E;
  match goal with |- context [expect t ?a] =>
    match type of E with opt_rel same (expect t a) (expect t ?b) =>
      let r1 := fresh "r" in let r2 := fresh "r" in
      destruct (expect t a) as [r1|], (expect t b) as [r2|]; cbn [opt_rel] in E; try contradiction
    end end.

Lemma comments_do_not_matter n : forall a b, same a b ->
  parsed_rel (parse_term n a) (parse_term n b) /\
  out_rel rest_rel (parse_terms n a) (parse_terms n b) /\
  parsed_rel (parse_simple_atom n a) (parse_simple_atom n b) /\
  parsed_rel (parse_atom n a) (parse_atom n b) /\
  parsed_rel (parse_disjuncted_atom n a) (parse_disjuncted_atom n b) /\
  parsed_rel (parse_disjuncts n a) (parse_disjuncts n b) /\
  parsed_rel (parse_atoms n a) (parse_atoms n b) /\
  parsed_rel (parse_grouped_atoms n a) (parse_grouped_atoms n b) /\
  parsed_rel (parse_ungrouped_atoms n a) (parse_ungrouped_atoms n b).
Proof.
  induction n as [|n IH]; intros a b H; [repeat split|].
  repeat match goal with |- _ /\ _ => split end.
  - cbn [parse_term]. pose proof (next_token_same a b H) as HN.
    destruct (next_token a) as [[t r]|], (next_token b) as [[t' r']|]; try contradiction; [|reflexivity].
    destruct HN as [<- HN]. destruct (Ascii.eqb (first_char t) quote1); [split; [reflexivity|exact HN]|].
    destruct (Ascii.eqb (first_char t) quote2); [split; [reflexivity|exact HN]|].
    destruct (float_parts t) as [[x y]|]; [split; [reflexivity|exact HN]|].
    destruct (is_int t); [split; [reflexivity|exact HN]|]. destruct (is_variable t); [split; [reflexivity|exact HN]|].
    apply (out_bind (opt_rel rest_rel)); [apply IH, H|]. intros [[l s]|] [[l' s']|] HR; try contradiction; [|exact I].
    destruct HR as [HR1 HR2]. cbn in *. subst. split; [reflexivity|exact HR2].
  - cbn [parse_terms]. apply (out_bind (opt_rel rest_rel)); [apply IH, H|]. intros [[v s]|] [[v' s']|] HR; try contradiction.
    + destruct HR as [HR1 HR2]. cbn in HR1, HR2. subst v'. destruct (term_true v); [|split; [reflexivity|exact H]].
      on_expect "," HR2; [|split; [reflexivity|exact HR2]]. apply (out_bind rest_rel); [apply IH, HE|].
      intros [l q] [l' q'] [H1 H2]. cbn in H1, H2 |- *. subst l'. split; [reflexivity|exact H2].
    + split; [reflexivity|exact H].
  - cbn [parse_simple_atom]. pose proof (next_token_same a b H) as HN.
    destruct (next_token a) as [[t r]|], (next_token b) as [[t' r']|]; try contradiction; [|exact I].
    destruct HN as [<- HN]. destruct (is_identifier t); [|exact I]. on_expect "(" HN; [|exact I].
    apply (out_bind rest_rel); [apply IH, HE|]. intros [l q] [l' q'] [H1 H2]. cbn in H1, H2 |- *. subst l'.
    on_expect ")" H2; [|exact I]. split; [reflexivity|exact HE0].
  - cbn [parse_atom]. apply (out_bind (opt_rel rest_rel)); [apply IH, H|]. intros [[l s]|] [[l' s']|] HR; try contradiction.
    + destruct HR as [HR1 HR2]. cbn in *. subst. split; [reflexivity|exact HR2].
    + apply IH, H.
  - cbn [parse_disjuncted_atom]. on_expect "(" H; [|exact I].
    apply (out_bind (opt_rel rest_rel)); [apply IH, HE|]. intros [[l s]|] [[l' s']|] HR; try contradiction; [|exact I].
    destruct HR as [HR1 HR2]. cbn in HR1, HR2 |- *. subst l'. on_expect ")" HR2; [|exact I]. split; [reflexivity|exact HE0].
  - cbn [parse_disjuncts]. apply (out_bind (opt_rel rest_rel)); [apply IH, H|]. intros [[l s]|] [[l' s']|] HR; try contradiction; [|exact I].
    destruct HR as [HR1 HR2]. cbn in HR1, HR2 |- *. subst l'. on_expect ";" HR2; [|split; [reflexivity|exact HR2]].
    apply (out_bind (opt_rel rest_rel)); [apply IH, HE|]. intros [[l2 s2]|] [[l3 s3]|] HR'; try contradiction; [|exact I].
    destruct HR' as [H1 H2]. cbn in *. subst. split; [reflexivity|exact H2].
  - cbn [parse_atoms]. apply (out_bind (opt_rel rest_rel)); [apply IH, H|]. intros [[l s]|] [[l' s']|] HR; try contradiction; [exact HR|].
    apply IH, H.
  - cbn [parse_grouped_atoms]. on_expect "(" H; [|exact I].
    apply (out_bind (opt_rel rest_rel)); [apply IH, HE|]. intros [[l s]|] [[l' s']|] HR; try contradiction; [|exact I].
    destruct HR as [HR1 HR2]. cbn in HR1, HR2 |- *. subst l'. on_expect ")" HR2; [|exact I]. split; [reflexivity|exact HE0].
  - cbn [parse_ungrouped_atoms]. apply (out_bind (opt_rel rest_rel)); [apply IH, H|]. intros [[l s]|] [[l' s']|] HR; try contradiction; [|exact I].
    destruct HR as [HR1 HR2]. cbn in HR1, HR2 |- *. subst l'. on_expect "," HR2; [|split; [reflexivity|exact HR2]].
    apply (out_bind (opt_rel rest_rel)); [apply IH, HE|]. intros [[l2 s2]|] [[l3 s3]|] HR'; try contradiction; [|exact I].
    destruct HR' as [H1 H2]. cbn in *. subst. split; [reflexivity|exact H2].
Qed.

Lemma parse_rule_same n a b : same a b -> parsed_rel (parse_rule n a) (parse_rule n b).
Proof.
  intros H. unfold parse_rule. apply (out_bind (opt_rel rest_rel)); [apply comments_do_not_matter, H|].
  intros [[l s]|] [[l' s']|] HR; try contradiction; [|exact I]. destruct HR as [HR1 HR2]. cbn in HR1, HR2. subst l'.
  apply (out_bind (opt_rel rest_rel)).
  - on_expect ":-" HR2; [apply comments_do_not_matter, HE|split; [reflexivity|exact HR2]].
  - intros [[b0 s0]|] [[b1 s1]|] HR; try contradiction; [|exact I]. destruct HR as [H1 H2]. cbn in H1, H2. subst b1.
    cbn. on_expect "." H2; [|exact I]. split; [reflexivity|exact HE].
Qed.
Lemma parse_rule_list_same n m : forall a b, same a b -> out_rel rest_rel (parse_rule_list n m a) (parse_rule_list n m b).
Proof.
  induction m as [|m IH]; intros a b H; [exact I|]. cbn [parse_rule_list].
  apply (out_bind (opt_rel rest_rel)); [apply parse_rule_same, H|]. intros [[r s]|] [[r' s']|] HR; try contradiction; [|split; [reflexivity|exact H]].
  destruct HR as [HR1 HR2]. cbn in HR1, HR2. subst r'. apply (out_bind rest_rel); [apply IH, HR2|].
  intros [l q] [l' q'] [H1 H2]. cbn in *. subst. split; [reflexivity|exact H2].
Qed.

(** [parse_rules] of the tokens *)
Definition parse_tokens (n : nat) (ts : list string) : outcome (option (list rule)) :=
  obind (parse_rule_list n n ts) (fun r => Ok (match next_token (snd r) with None => Some (fst r) | Some _ => None end)).
Lemma parse_tokens_same n a b : same a b -> parse_tokens n a = parse_tokens n b.
Proof.
  intros H. unfold parse_tokens. pose proof (parse_rule_list_same n n a b H) as HR.
  destruct (parse_rule_list n n a) as [[l q]| |], (parse_rule_list n n b) as [[l' q']| |]; cbn in HR; try contradiction; cbn [obind]; [|congruence|reflexivity].
  destruct HR as [H1 H2]. cbn in H1, H2. subst l'. cbn [fst snd]. pose proof (next_token_same q q' H2) as HN.
  destruct (next_token q) as [[]|], (next_token q') as [[]|]; try contradiction; reflexivity.
Qed.

(** ** no zeros *)

(** every argument of every atom is true in Python's sense, at every depth *)
Inductive solid_term : value -> Prop :=
| solid_str s : s <> "" -> solid_term (VStr s)
| solid_int z : z <> 0%Z -> solid_term (VInt z)
| solid_float q : ~ (q == 0)%Q -> solid_term (VFloat q)
| solid_var x : solid_term (VVar x)
| solid_list l : l <> [] -> Forall solid_atom l -> solid_term (VList l)
with solid_atom : value -> Prop :=
| solid_tuple p l : Forall solid_term l -> solid_atom (VTuple (VStr p :: l))
| solid_or ds : Forall solid_term ds -> solid_atom (VTuple [VStr disjunction; VList ds]).

Definition res_ok {A} (P : A -> Prop) (o : parsed A) : Prop :=
  forall x rest, o = Ok (Some (x, rest)) -> P x.

Lemma results_solid n : forall ts,
  res_ok (fun v => term_true v = true -> solid_term v) (parse_term n ts) /\
  (forall l rest, parse_terms n ts = Ok (l, rest) -> Forall solid_term l) /\
  res_ok (fun l => solid_atom (VTuple l)) (parse_simple_atom n ts) /\
  res_ok solid_atom (parse_atom n ts) /\
  res_ok solid_atom (parse_disjuncted_atom n ts) /\
  res_ok (fun ds => Forall solid_term ds) (parse_disjuncts n ts) /\
  res_ok (fun l => l <> [] /\ Forall solid_atom l) (parse_atoms n ts) /\
  res_ok (fun l => l <> [] /\ Forall solid_atom l) (parse_grouped_atoms n ts) /\
  res_ok (fun l => l <> [] /\ Forall solid_atom l) (parse_ungrouped_atoms n ts).
Proof.
  induction n as [|n IH]; intros ts.
  { repeat match goal with |- _ /\ _ => split end; intros x rest E; discriminate E. }
  repeat match goal with |- _ /\ _ => split end; try intros x rest.
  - cbn [parse_term]. destruct (next_token ts) as [[t r]|]; [|discriminate].
    destruct (Ascii.eqb (first_char t) quote1).
    { intros [= <- _] HT. constructor. cbn in HT. apply negb_true_iff, String.eqb_neq in HT. exact HT. }
    destruct (Ascii.eqb (first_char t) quote2).
    { intros [= <- _] HT. constructor. cbn in HT. apply negb_true_iff, String.eqb_neq in HT. exact HT. }
    destruct (float_parts t) as [[u v]|].
    { intros [= <- _] HT. constructor. unfold term_true in HT. apply negb_true_iff in HT. intros E. apply Qeq_bool_iff in E. congruence. }
    destruct (is_int t).
    { intros [= <- _] HT. constructor. unfold term_true in HT. apply negb_true_iff, Z.eqb_neq in HT. exact HT. }
    destruct (is_variable t); [intros [= <- _] _; constructor|].
    pose proof (proj1 (proj2 (proj2 (proj2 (proj2 (proj2 (proj2 (IH ts)))))))) as HA.
    destruct (parse_atoms n ts) as [[[l s]|]| |]; cbn [obind]; try discriminate. intros [= <- _] _.
    destruct (HA l s eq_refl). constructor; assumption.
  - cbn [parse_terms]. pose proof (proj1 (IH ts)) as HA.
    destruct (parse_term n ts) as [[[v s]|]| |]; cbn [obind]; try discriminate; [|intros [= <- _]; constructor].
    destruct (term_true v) eqn:ET; [|intros [= <- _]; constructor]. specialize (HA v s eq_refl ET).
    destruct (expect "," s) as [s'|]; [|intros [= <- _]; constructor; auto].
    pose proof (proj1 (proj2 (IH s'))) as HB. destruct (parse_terms n s') as [[l q]| |]; cbn [obind]; try discriminate.
    intros [= <- _]. constructor; [exact HA|]. apply (HB l q eq_refl).
  - cbn [parse_simple_atom]. destruct (next_token ts) as [[t r]|]; [|discriminate]. destruct (is_identifier t); [|discriminate].
    destruct (expect "(" r) as [s|]; [|discriminate]. pose proof (proj1 (proj2 (IH s))) as HB.
    destruct (parse_terms n s) as [[l q]| |]; cbn [obind fst snd]; try discriminate. destruct (expect ")" q); [|discriminate].
    intros [= <- _]. constructor. apply (HB l q eq_refl).
  - cbn [parse_atom]. pose proof (proj1 (proj2 (proj2 (IH ts)))) as HA. pose proof (proj1 (proj2 (proj2 (proj2 (proj2 (IH ts)))))) as HB.
    destruct (parse_simple_atom n ts) as [[[l s]|]| |]; cbn [obind]; try discriminate.
    + intros [= <- _]. apply (HA l s eq_refl).
    + intros E. apply (HB x rest E).
  - cbn [parse_disjuncted_atom]. destruct (expect "(" ts) as [s|]; [|discriminate].
    pose proof (proj1 (proj2 (proj2 (proj2 (proj2 (proj2 (IH s))))))) as HA.
    destruct (parse_disjuncts n s) as [[[l q]|]| |]; cbn [obind]; try discriminate. destruct (expect ")" q); [|discriminate].
    intros [= <- _]. apply solid_or. apply (HA l q eq_refl).
  - cbn [parse_disjuncts]. pose proof (proj1 (proj2 (proj2 (proj2 (proj2 (proj2 (proj2 (IH ts)))))))) as HA.
    destruct (parse_atoms n ts) as [[[l s]|]| |]; cbn [obind]; try discriminate. destruct (HA l s eq_refl) as [H1 H2].
    destruct (expect ";" s) as [s'|].
    + pose proof (proj1 (proj2 (proj2 (proj2 (proj2 (proj2 (IH s'))))))) as HB.
      destruct (parse_disjuncts n s') as [[[ds q]|]| |]; cbn [obind]; try discriminate.
      intros [= <- _]. constructor; [constructor; assumption|]. apply (HB ds q eq_refl).
    + intros [= <- _]. constructor; [constructor; assumption|constructor].
  - cbn [parse_atoms]. pose proof (proj1 (proj2 (proj2 (proj2 (proj2 (proj2 (proj2 (proj2 (IH ts))))))))) as HA.
    pose proof (proj2 (proj2 (proj2 (proj2 (proj2 (proj2 (proj2 (proj2 (IH ts))))))))) as HB.
    destruct (parse_grouped_atoms n ts) as [[[l s]|]| |]; cbn [obind]; try discriminate.
    + intros [= <- _]. apply (HA l s eq_refl).
    + intros E. apply (HB x rest E).
  - cbn [parse_grouped_atoms]. destruct (expect "(" ts) as [s|]; [|discriminate].
    pose proof (proj1 (proj2 (proj2 (proj2 (proj2 (proj2 (proj2 (IH s)))))))) as HA.
    destruct (parse_atoms n s) as [[[l q]|]| |]; cbn [obind]; try discriminate. destruct (expect ")" q); [|discriminate].
    intros [= <- _]. apply (HA l q eq_refl).
  - cbn [parse_ungrouped_atoms]. pose proof (proj1 (proj2 (proj2 (proj2 (IH ts))))) as HA.
    destruct (parse_atom n ts) as [[[a s]|]| |]; cbn [obind]; try discriminate. specialize (HA a s eq_refl). cbv beta in HA.
    destruct (expect "," s) as [s'|].
    + pose proof (proj2 (proj2 (proj2 (proj2 (proj2 (proj2 (proj2 (proj2 (IH s'))))))))) as HB.
      destruct (parse_ungrouped_atoms n s') as [[[l q]|]| |]; cbn [obind]; try discriminate.
      intros [= <- _]. split; [discriminate|]. constructor; [exact HA|]. apply (HB l q eq_refl).
    + intros [= <- _]. split; [discriminate|]. constructor; [exact HA|constructor].
Qed.

(** ** what is read *)

(** what is between [ts] and [rest] *)
Definition eats (ts rest l : list string) : Prop := strip ts = l ++ strip rest.

Lemma next_token_eats ts t rest : next_token ts = Some (t, rest) -> eats ts rest [t].
Proof. intros H. pose proof (next_token_strip ts) as HS. rewrite H in HS. exact (proj1 HS). Qed.
Lemma next_token_none ts : next_token ts = None -> strip ts = [].
Proof. intros H. pose proof (next_token_strip ts) as HS. now rewrite H in HS. Qed.
Lemma expect_eats t ts rest : expect t ts = Some rest -> eats ts rest [t].
Proof.
  unfold expect. destruct (next_token ts) as [[t' r]|] eqn:E; [|discriminate].
  destruct (String.eqb_spec t' t) as [->|]; [|discriminate]. intros [= <-]. now apply next_token_eats.
Qed.
Lemma eats_trans a b c l m : eats a b l -> eats b c m -> eats a c (l ++ m).
Proof. unfold eats. intros -> ->. apply app_assoc. Qed.
Lemma eats_nil a : eats a a [].
Proof. reflexivity. Qed.

(** the value of a row of digits *)
Fixpoint digits_value (acc : Z) (s : string) : Z :=
  match s with
  | EmptyString => acc
  | String c s' => digits_value (10 * acc + (Z.of_nat (nat_of_ascii c) - 48)) s'
  end.
(** a number without a digit other than zero *)
Definition zero_token (t : string) : Prop :=
  (is_int t = true /\ digits_value 0 t = 0%Z) \/
  (exists a b, is_int a = true /\ is_int b = true /\ t = append a (append "." b) /\ digits_value 0 a = 0%Z /\ digits_value 0 b = 0%Z).
(** a zero is only used as a predicate *)
Definition no_zeros (l : list string) : Prop :=
  forall a t b, l = a ++ t :: b -> zero_token t -> exists b', b = "(" :: b'.

Lemma no_zeros_nil : no_zeros [].
Proof. intros a t b H. destruct a; discriminate. Qed.
Lemma no_zeros_one t : ~ zero_token t -> no_zeros [t].
Proof.
  intros H a t' b E Hz. destruct a as [|x a]; [injection E as <- <-; contradiction|].
  destruct a; discriminate.
Qed.
Lemma no_zeros_app l m : no_zeros l -> no_zeros m -> no_zeros (l ++ m).
Proof.
  intros Hl Hm. induction l as [|x l IH]; intros a t b E Hz; [apply (Hm a t b E Hz)|].
  destruct a as [|y a]; cbn [app] in E; injection E as <- E.
  - destruct (Hl [] x l eq_refl Hz) as (b' & ->). exists (b' ++ m). rewrite <- E. reflexivity.
  - apply (IH ltac:(intros a' t' b' E' H'; apply (Hl (x :: a') t' b'); [cbn; congruence|exact H']) a t b E Hz).
Qed.
Lemma no_zeros_pred t l : no_zeros l -> no_zeros (t :: "(" :: l).
Proof.
  intros Hl a t' b E Hz. destruct a as [|x a]; [injection E as <- <-; eexists; reflexivity|].
  injection E as _ E. destruct a as [|y a]; [|injection E as _ E; exact (Hl _ _ _ E Hz)].
  injection E as <- _. exfalso. destruct Hz as [[Hz _]|(u & v & Hu & _ & Ht & _)]; [discriminate|].
  destruct u as [|c u]; [discriminate|]. injection Ht as <- _. discriminate.
Qed.

Lemma mark_not_zero t : In t ["."; ","; ";"; ":-"; "("; ")"] -> ~ zero_token t.
Proof.
  intros H [[Hz _]|(u & v & Hu & _ & Ht & _)].
  - simpl in H. repeat (destruct H as [<-|H]; [discriminate|]). destruct H.
  - destruct u as [|c u]; [discriminate|]. cbn [append] in Ht. simpl in H.
    repeat (destruct H as [<-|H]; [injection Ht as <- _; discriminate|]). destruct H.
Qed.

(** the text stops after a bracket or a comma *)
Definition open_end (l : list string) : Prop := exists l' t, l = l' ++ [t] /\ (t = "(" \/ t = ",").
Lemma open_end_app a b : open_end b -> open_end (a ++ b).
Proof. intros (l & t & -> & H). exists (a ++ l), t. split; [apply app_assoc|exact H]. Qed.

Definition exn_ok {A} (P : Prop) (o : outcome A) : Prop := forall e, o = Exn e -> e = TypeErr /\ P.

(** ** numbers *)
Fixpoint uval (d : Decimal.uint) (acc : Z) : Z :=
  match d with
  | Nil => acc
  | D0 l => uval l (10 * acc) | D1 l => uval l (10 * acc + 1) | D2 l => uval l (10 * acc + 2)
  | D3 l => uval l (10 * acc + 3) | D4 l => uval l (10 * acc + 4) | D5 l => uval l (10 * acc + 5)
  | D6 l => uval l (10 * acc + 6) | D7 l => uval l (10 * acc + 7) | D8 l => uval l (10 * acc + 8)
  | D9 l => uval l (10 * acc + 9)
  end%Z.
Lemma uval_acc d : forall p, Zpos (Pos.of_uint_acc d p) = uval d (Zpos p).
Proof. induction d; intros p; cbn [Pos.of_uint_acc uval]; [reflexivity|..]; rewrite IHd; f_equal; lia. Qed.
Lemma uval_of_uint d : Z.of_uint d = uval d 0.
Proof.
  unfold Z.of_uint. induction d; [reflexivity|exact IHd|..]; cbn [Pos.of_uint uval Z.of_N]; rewrite uval_acc; reflexivity.
Qed.
Lemma uint_of_digit c u : digit_char c = true ->
  exists u', uint_of_char c (Some u) = Some u' /\ forall acc, uval u' acc = uval u (10 * acc + (Z.of_nat (nat_of_ascii c) - 48)).
Proof.
  destruct c as [[] [] [] [] [] [] [] []]; intros H; try discriminate H;
    (eexists; split; [reflexivity|intros acc; cbn [uval]; f_equal; cbn; lia]).
Qed.
Lemma uint_of_digits s : all_digits s = true -> exists u, NilEmpty.uint_of_string s = Some u /\ forall acc, uval u acc = digits_value acc s.
Proof.
  induction s as [|c s IH]; intros H; [exists Nil; split; reflexivity|]. cbn [all_digits] in H. apply andb_true_iff in H as [Hc Hs].
  destruct (IH Hs) as (u & E & Hu). destruct (uint_of_digit c u Hc) as (u' & E' & Hu'). exists u'. cbn [NilEmpty.uint_of_string].
  rewrite E, E'. split; [reflexivity|]. intros acc. rewrite Hu', Hu. reflexivity.
Qed.
Lemma int_of_digits_value t : is_int t = true -> int_of_digits t = digits_value 0 t.
Proof.
  unfold is_int. intros H. apply andb_true_iff in H as [Hn Hd]. destruct (uint_of_digits t Hd) as (u & E & Hu).
  unfold int_of_digits. replace (NilZero.uint_of_string t) with (NilEmpty.uint_of_string t) by (destruct t; [discriminate|reflexivity]).
  rewrite E, uval_of_uint. apply Hu.
Qed.
Lemma digits_value_app s : forall acc t, digits_value acc (append s t) = digits_value (digits_value acc s) t.
Proof. induction s as [|c s IH]; intros acc t; [reflexivity|]. cbn [append digits_value]. apply IH. Qed.
Lemma digits_value_acc s : forall acc, digits_value acc s = (acc * 10 ^ Z.of_nat (String.length s) + digits_value 0 s)%Z.
Proof.
  induction s as [|c s IH]; intros acc; [cbn; lia|]. cbn [digits_value String.length].
  rewrite (IH (10 * acc + _)%Z), (IH (10 * 0 + _)%Z), Nat2Z.inj_succ, Z.pow_succ_r by lia. ring.
Qed.
Lemma digit_code c : digit_char c = true -> (0 <= Z.of_nat (nat_of_ascii c) - 48)%Z.
Proof. unfold digit_char. cbv zeta. intros H. apply andb_true_iff in H as [H _]. apply Nat.leb_le in H. lia. Qed.
Lemma digits_value_nonneg s : all_digits s = true -> forall acc, (0 <= acc -> 0 <= digits_value acc s)%Z.
Proof.
  induction s as [|c s IH]; intros H acc Ha; [exact Ha|]. cbn [all_digits] in H. apply andb_true_iff in H as [Hc Hs].
  cbn [digits_value]. apply IH; [exact Hs|]. apply digit_code in Hc. lia.
Qed.
Lemma all_digits_app a b : all_digits (append a b) = all_digits a && all_digits b.
Proof. induction a as [|c a IH]; [reflexivity|]. cbn [append all_digits]. rewrite IH. apply andb_assoc. Qed.
Lemma is_int_app a b : is_int a = true -> is_int b = true -> is_int (append a b) = true.
Proof.
  unfold is_int. intros Ha Hb. apply andb_true_iff in Ha as [Ha1 Ha2], Hb as [_ Hb2]. rewrite all_digits_app, Ha2, Hb2.
  destruct a; [discriminate|reflexivity].
Qed.
Lemma float_of_parts_value a b : is_int a = true -> is_int b = true ->
  float_of_parts a b = Qred (inject_Z (digits_value 0 a) + inject_Z (digits_value 0 b) / inject_Z (10 ^ Z.of_nat (String.length b))).
Proof.
  intros Ha Hb. unfold float_of_parts. apply Qred_complete. rewrite int_of_digits_value by now apply is_int_app.
  rewrite digits_value_app, digits_value_acc.
  assert (HP : (0 < 10 ^ Z.of_nat (String.length b))%Z) by (apply Z.pow_pos_nonneg; lia).
  set (p := (10 ^ Z.of_nat (String.length b))%Z) in *. destruct p as [|p|p]; try lia. cbn [Z.to_pos].
  rewrite Qmake_Qdiv. unfold Qeq, Qdiv, Qplus, Qmult, Qinv, inject_Z. cbn [Qnum Qden]. lia.
Qed.

Lemma digit_run_all s : digit_run s <= String.length s /\ all_digits (take (digit_run s) s) = true.
Proof.
  induction s as [|c s [IH1 IH2]]; [split; [auto|reflexivity]|]. cbn [digit_run]. destruct (digit_char c) eqn:E; [|split; [lia|reflexivity]].
  cbn [String.length take Nat.add all_digits]. rewrite E, IH2. split; [lia|reflexivity].
Qed.
Lemma take_drop n s : append (take n s) (drop n s) = s.
Proof. revert s; induction n as [|n IH]; intros [|c s]; cbn; try reflexivity. f_equal. apply IH. Qed.
Lemma drop_drop n m s : drop (n + m) s = drop m (drop n s).
Proof. revert s; induction n as [|n IH]; intros [|c s]; cbn; try reflexivity; [now destruct m|apply IH]. Qed.
Lemma starts_is c s : starts c s = true -> s = String c (drop 1 s).
Proof. destruct s as [|d s]; [discriminate|]. simpl. intros H. apply Ascii.eqb_eq in H. subst. reflexivity. Qed.
Lemma float_parts_sound t a b : float_parts t = Some (a, b) -> is_int a = true /\ is_int b = true /\ t = append a (append "." b).
Proof.
  unfold float_parts. cbv zeta. destruct (_ && _ && _) eqn:E; [|discriminate]. intros [= <- <-].
  apply andb_true_iff in E as [E E3]. apply andb_true_iff in E as [E1 E2]. repeat split.
  - unfold is_int. now rewrite E1, (proj2 (digit_run_all t)).
  - exact E3.
  - apply starts_is in E2. rewrite <- drop_drop in E2. rewrite <- (take_drop (digit_run t) t) at 1. rewrite E2. reflexivity.
Qed.
Lemma digit_run_app a s : all_digits a = true -> (match s with String c _ => digit_char c = false | EmptyString => True end) ->
  digit_run (append a s) = String.length a.
Proof.
  induction a as [|c a IH]; intros H Hs; cbn [append].
  - destruct s as [|d s]; [reflexivity|]. simpl. now rewrite Hs.
  - cbn [all_digits] in H. apply andb_true_iff in H as [Hc Ha]. cbn [digit_run]. rewrite Hc, IH by assumption. reflexivity.
Qed.
Lemma float_parts_complete a b : is_int a = true -> is_int b = true -> float_parts (append a (append "." b)) = Some (a, b).
Proof.
  intros Ha Hb. unfold float_parts. cbv zeta. assert (Hd : all_digits a = true) by (apply andb_true_iff in Ha; apply Ha).
  rewrite (digit_run_app a (append "." b) Hd) by reflexivity. rewrite drop_drop, take_app, !drop_app. cbn [append drop starts].
  rewrite Hb. unfold is_int in Ha. apply andb_true_iff in Ha as [Ha _]. rewrite Ha. reflexivity.
Qed.
Lemma dot_not_digit a b : all_digits (append a (append "." b)) = false.
Proof. rewrite all_digits_app. cbn [append all_digits]. change (digit_char ".") with false. cbn [andb]. apply andb_false_r. Qed.
Lemma int_no_float t : is_int t = true -> float_parts t = None.
Proof.
  intros H. destruct (float_parts t) as [[a b]|] eqn:E; [|reflexivity]. apply float_parts_sound in E as (_ & _ & ->).
  apply andb_true_iff in H as [_ H]. now rewrite dot_not_digit in H.
Qed.

Lemma app_dot_inj a : forall b a' b', all_digits a = true -> all_digits a' = true ->
  append a (append "." b) = append a' (append "." b') -> a = a' /\ b = b'.
Proof.
  induction a as [|c a IH]; intros b a' b' Ha Ha' E; destruct a' as [|c' a']; cbn [append] in E.
  - injection E as <-. auto.
  - injection E as <- E. discriminate Ha'.
  - injection E as -> E. discriminate Ha.
  - injection E as <- E. cbn [all_digits] in Ha, Ha'. apply andb_true_iff in Ha as [_ Ha], Ha' as [_ Ha'].
    destruct (IH b a' b' Ha Ha' E) as [-> ->]. auto.
Qed.
Lemma true_int_not_zero t : is_int t = true -> term_true (VInt (int_of_digits t)) = true -> ~ zero_token t.
Proof.
  intros Hi Ht [[_ Hz]|(a & b & _ & _ & -> & _)].
  - rewrite int_of_digits_value, Hz in Ht by exact Hi. discriminate.
  - unfold is_int in Hi. rewrite dot_not_digit, andb_false_r in Hi. discriminate.
Qed.
Lemma true_float_not_zero t a b : float_parts t = Some (a, b) -> term_true (VFloat (float_of_parts a b)) = true -> ~ zero_token t.
Proof.
  intros Hf Ht [[Hi _]|(a' & b' & Ha' & Hb' & -> & Hza & Hzb)].
  - rewrite int_no_float in Hf by exact Hi. discriminate.
  - rewrite float_parts_complete in Hf by assumption. injection Hf as <- <-.
    rewrite float_of_parts_value, Hza, Hzb in Ht by assumption.
    unfold term_true in Ht. apply negb_true_iff in Ht. apply Qeq_bool_neq in Ht. apply Ht. rewrite Qred_correct.
    unfold Qdiv. rewrite Qmult_0_l. reflexivity.
Qed.
Lemma not_number_not_zero t : is_int t = false -> float_parts t = None -> ~ zero_token t.
Proof.
  intros Hi Hf [[H _]|(a & b & Ha & Hb & -> & _)]; [congruence|]. rewrite float_parts_complete in Hf by assumption. discriminate.
Qed.
Lemma quote_not_zero t q : Ascii.eqb (first_char t) q = true -> In q [quote1; quote2] -> ~ zero_token t.
Proof.
  intros H Hq Hz. apply Ascii.eqb_eq in H. subst q. unfold zero_token in Hz. destruct t as [|c t].
  - simpl in Hq. destruct Hq as [E|[E|[]]]; discriminate E.
  - cbn [first_char] in Hq. assert (Hd : digit_char c = false) by (simpl in Hq; destruct Hq as [<-|[<-|[]]]; reflexivity).
    destruct Hz as [[Hi _]|(a & b & Ha & _ & E & _)].
    + unfold is_int in Hi. cbn [all_digits] in Hi. rewrite Hd in Hi. rewrite andb_false_r in Hi. discriminate.
    + destruct a as [|c' a]; [discriminate|]. cbn [append] in E. injection E as <- _. unfold is_int in Ha. cbn [all_digits] in Ha.
      rewrite Hd, andb_false_r in Ha. discriminate.
Qed.

(** what a parser function does when it succeeds or raises *)
Definition reads {A} (ts : list string) (o : parsed A) : Prop :=
  (forall x rest, o = Ok (Some (x, rest)) -> exists l, l <> [] /\ no_zeros l /\ eats ts rest l) /\
  exn_ok (open_end (strip ts)) o.

Lemma eats_end a b l t : eats a b (l ++ [t]) -> t = "(" \/ t = "," -> open_end (strip b) \/ strip b = [] -> open_end (strip a).
Proof.
  unfold eats. intros -> Ht [H|H]; [apply open_end_app, H|]. rewrite H, app_nil_r. exists l, t. auto.
Qed.

Lemma all_read n : forall ts,
  ((forall v rest, parse_term n ts = Ok (Some (v, rest)) -> term_true v = true -> exists l, l <> [] /\ no_zeros l /\ eats ts rest l) /\
   exn_ok (open_end (strip ts) \/ strip ts = []) (parse_term n ts)) /\
  ((forall l rest, parse_terms n ts = Ok (l, rest) -> exists l, no_zeros l /\ eats ts rest l) /\
   exn_ok (open_end (strip ts) \/ strip ts = []) (parse_terms n ts)) /\
  reads ts (parse_simple_atom n ts) /\ reads ts (parse_atom n ts) /\ reads ts (parse_disjuncted_atom n ts) /\
  reads ts (parse_disjuncts n ts) /\ reads ts (parse_atoms n ts) /\ reads ts (parse_grouped_atoms n ts) /\
  reads ts (parse_ungrouped_atoms n ts).
Proof.
  induction n as [|n IH]; intros ts.
  { unfold reads, exn_ok. repeat match goal with |- _ /\ _ => split end; intros; discriminate. }
  assert (IHt := fun ts => proj1 (IH ts)).
  assert (IHts := fun ts => proj1 (proj2 (IH ts))).
  assert (IHs := fun ts => proj1 (proj2 (proj2 (IH ts)))).
  assert (IHd := fun ts => proj1 (proj2 (proj2 (proj2 (proj2 (IH ts)))))).
  assert (IHds := fun ts => proj1 (proj2 (proj2 (proj2 (proj2 (proj2 (IH ts))))))).
  assert (IHas := fun ts => proj1 (proj2 (proj2 (proj2 (proj2 (proj2 (proj2 (IH ts)))))))).
  assert (IHg := fun ts => proj1 (proj2 (proj2 (proj2 (proj2 (proj2 (proj2 (proj2 (IH ts))))))))).
  assert (IHu := fun ts => proj2 (proj2 (proj2 (proj2 (proj2 (proj2 (proj2 (proj2 (IH ts))))))))).
  assert (IHa := fun ts => proj1 (proj2 (proj2 (proj2 (IH ts))))).
  clear IH. split; [|split; [|split; [|split; [|split; [|split; [|split; [|split]]]]]]].
  - cbn [parse_term]. destruct (next_token ts) as [[t r]|] eqn:EN.
    2:{ split; [discriminate|]. intros e [= <-]. split; [reflexivity|]. right. now apply next_token_none. }
    pose proof (next_token_eats _ _ _ EN) as HE.
    assert (Hone : ~ zero_token t -> exists l, l <> [] /\ no_zeros l /\ eats ts r l).
    { intros Hz. exists [t]. split; [discriminate|]. split; [now apply no_zeros_one|exact HE]. }
    destruct (Ascii.eqb (first_char t) quote1) eqn:E1.
    { split; [|intros e [=]]. intros v rest [= _ <-] _. apply Hone. apply (quote_not_zero t quote1 E1); simpl; auto. }
    destruct (Ascii.eqb (first_char t) quote2) eqn:E2.
    { split; [|intros e [=]]. intros v rest [= _ <-] _. apply Hone. apply (quote_not_zero t quote2 E2); simpl; auto. }
    destruct (float_parts t) as [[a b]|] eqn:E3.
    { split; [|intros e [=]]. intros v rest [= <- <-] HT. apply Hone. apply (true_float_not_zero t a b E3 HT). }
    destruct (is_int t) eqn:E4.
    { split; [|intros e [=]]. intros v rest [= <- <-] HT. apply Hone. apply (true_int_not_zero t E4 HT). }
    destruct (is_variable t).
    { split; [|intros e [=]]. intros v rest [= _ <-] _. apply Hone. apply (not_number_not_zero t E4 E3). }
    destruct (IHas ts) as [H1 H2]. destruct (parse_atoms n ts) as [[[l s]|]|e|]; cbn [obind]; (split; [|intros e' [=]]); try discriminate.
    + intros v rest [= _ <-] _. apply (H1 l s eq_refl).
    + subst e'. destruct (H2 e eq_refl). auto.
  - cbn [parse_terms]. destruct (IHt ts) as [H1 H2]. destruct (parse_term n ts) as [[[v s]|]|e|]; cbn [obind].
    + destruct (term_true v) eqn:ET.
      2:{ split; [|intros e [=]]. intros l rest [= _ <-]. exists []. split; [apply no_zeros_nil|apply eats_nil]. }
      destruct (H1 v s eq_refl ET) as (l1 & Hne & Hz1 & He1).
      destruct (expect "," s) as [s'|] eqn:EC.
      * apply expect_eats in EC. destruct (IHts s') as [H3 H4].
        assert (HE : eats ts s' (l1 ++ [","])) by (eapply eats_trans; eassumption).
        destruct (parse_terms n s') as [[l q]|e|]; cbn [obind fst snd]; (split; [|intros e' [=]]); try discriminate.
        -- intros l' rest [= _ <-]. destruct (H3 l q eq_refl) as (l2 & Hz2 & He2). exists ((l1 ++ [","]) ++ l2).
           split; [|eapply eats_trans; eassumption]. apply no_zeros_app; [|exact Hz2]. apply no_zeros_app; [exact Hz1|].
           apply no_zeros_one, mark_not_zero. simpl; auto.
        -- subst e'. destruct (H4 e eq_refl) as [-> H5]. split; [reflexivity|]. left. apply (eats_end ts s' l1 ","); auto.
      * split; [|intros e [=]]. intros l rest [= _ <-]. exists l1. auto.
    + split; [|intros e [=]]. intros l rest [= _ <-]. exists []. split; [apply no_zeros_nil|apply eats_nil].
    + split; [discriminate|]. intros e' [= <-]. apply (H2 e eq_refl).
    + split; [discriminate|intros e [=]].
  - unfold reads. cbn [parse_simple_atom]. destruct (next_token ts) as [[t r]|] eqn:EN; [|split; [discriminate|intros e [=]]].
    apply next_token_eats in EN. destruct (is_identifier t); [|split; [discriminate|intros e [=]]].
    destruct (expect "(" r) as [s|] eqn:EO; [|split; [discriminate|intros e [=]]]. apply expect_eats in EO.
    assert (HE : eats ts s ([t] ++ ["("])) by (eapply eats_trans; eassumption).
    destruct (IHts s) as [H1 H2]. destruct (parse_terms n s) as [[l q]|e|]; cbn [obind fst snd].
    + destruct (expect ")" q) as [q'|] eqn:EC; [|split; [discriminate|intros e [=]]]. split; [|intros e [=]].
      apply expect_eats in EC. intros x rest [= _ <-]. destruct (H1 l q eq_refl) as (l1 & Hz & He).
      exists (([t] ++ ["("]) ++ l1 ++ [")"]). split; [discriminate|]. split.
      * apply (no_zeros_pred t). apply no_zeros_app; [exact Hz|]. apply no_zeros_one, mark_not_zero. simpl; auto 8.
      * eapply eats_trans; [exact HE|]. eapply eats_trans; eassumption.
    + split; [discriminate|]. intros e' [= <-]. destruct (H2 e eq_refl) as [-> H3]. split; [reflexivity|].
      apply (eats_end ts s [t] "("); auto.
    + split; [discriminate|intros e [=]].
  - unfold reads. cbn [parse_atom]. destruct (IHs ts) as [H1 H2]. destruct (IHd ts) as [H3 H4].
    destruct (parse_simple_atom n ts) as [[[l s]|]|e|]; cbn [obind].
    + split; [|intros e [=]]. intros x rest [= _ <-]. apply (H1 l s eq_refl).
    + split; assumption.
    + split; [discriminate|]. intros e' [= <-]. apply (H2 e eq_refl).
    + split; [discriminate|intros e [=]].
  - unfold reads. cbn [parse_disjuncted_atom]. destruct (expect "(" ts) as [s|] eqn:EO; [|split; [discriminate|intros e [=]]].
    apply expect_eats in EO. destruct (IHds s) as [H1 H2]. destruct (parse_disjuncts n s) as [[[l q]|]|e|]; cbn [obind].
    + destruct (expect ")" q) as [q'|] eqn:EC; [|split; [discriminate|intros e [=]]]. split; [|intros e [=]].
      apply expect_eats in EC. intros x rest [= _ <-]. destruct (H1 l q eq_refl) as (l1 & _ & Hz & He).
      exists (["("] ++ l1 ++ [")"]). split; [discriminate|]. split.
      * apply no_zeros_app; [apply no_zeros_one, mark_not_zero; simpl; auto 8|]. apply no_zeros_app; [exact Hz|].
        apply no_zeros_one, mark_not_zero. simpl; auto 8.
      * eapply eats_trans; [exact EO|]. eapply eats_trans; eassumption.
    + split; [discriminate|intros e [=]].
    + split; [discriminate|]. intros e' [= <-]. destruct (H2 e eq_refl) as [-> H3]. split; [reflexivity|]. unfold eats in EO. rewrite EO. now apply open_end_app.
    + split; [discriminate|intros e [=]].
  - unfold reads. cbn [parse_disjuncts]. destruct (IHas ts) as [H1 H2]. destruct (parse_atoms n ts) as [[[l s]|]|e|]; cbn [obind].
    + destruct (H1 l s eq_refl) as (l1 & Hne & Hz1 & He1). destruct (expect ";" s) as [s'|] eqn:EC.
      * apply expect_eats in EC. destruct (IHds s') as [H3 H4].
        assert (HE : eats ts s' (l1 ++ [";"])) by (eapply eats_trans; eassumption).
        destruct (parse_disjuncts n s') as [[[ds q]|]|e|]; cbn [obind].
        -- split; [|intros e [=]]. intros x rest [= _ <-]. destruct (H3 ds q eq_refl) as (l2 & _ & Hz2 & He2).
           exists ((l1 ++ [";"]) ++ l2). split; [destruct l1; discriminate|]. split; [|eapply eats_trans; eassumption].
           apply no_zeros_app; [|exact Hz2]. apply no_zeros_app; [exact Hz1|]. apply no_zeros_one, mark_not_zero. simpl; auto.
        -- split; [discriminate|intros e [=]].
        -- split; [discriminate|]. intros e' [= <-]. destruct (H4 e eq_refl) as [-> H5]. split; [reflexivity|]. unfold eats in HE. rewrite HE. now apply open_end_app.
        -- split; [discriminate|intros e [=]].
      * split; [|intros e [=]]. intros x rest [= _ <-]. exists l1. auto.
    + split; [discriminate|intros e [=]].
    + split; [discriminate|]. intros e' [= <-]. apply (H2 e eq_refl).
    + split; [discriminate|intros e [=]].
  - unfold reads. cbn [parse_atoms]. destruct (IHg ts) as [H1 H2]. destruct (IHu ts) as [H3 H4].
    destruct (parse_grouped_atoms n ts) as [[[l s]|]|e|]; cbn [obind].
    + split; [|intros e [=]]. intros x rest [= _ <-]. apply (H1 l s eq_refl).
    + split; assumption.
    + split; [discriminate|]. intros e' [= <-]. apply (H2 e eq_refl).
    + split; [discriminate|intros e [=]].
  - unfold reads. cbn [parse_grouped_atoms]. destruct (expect "(" ts) as [s|] eqn:EO; [|split; [discriminate|intros e [=]]].
    apply expect_eats in EO. destruct (IHas s) as [H1 H2]. destruct (parse_atoms n s) as [[[l q]|]|e|]; cbn [obind].
    + destruct (expect ")" q) as [q'|] eqn:EC; [|split; [discriminate|intros e [=]]]. split; [|intros e [=]].
      apply expect_eats in EC. intros x rest [= _ <-]. destruct (H1 l q eq_refl) as (l1 & _ & Hz & He).
      exists (["("] ++ l1 ++ [")"]). split; [discriminate|]. split.
      * apply no_zeros_app; [apply no_zeros_one, mark_not_zero; simpl; auto 8|]. apply no_zeros_app; [exact Hz|].
        apply no_zeros_one, mark_not_zero. simpl; auto 8.
      * eapply eats_trans; [exact EO|]. eapply eats_trans; eassumption.
    + split; [discriminate|intros e [=]].
    + split; [discriminate|]. intros e' [= <-]. destruct (H2 e eq_refl) as [-> H3]. split; [reflexivity|]. unfold eats in EO. rewrite EO. now apply open_end_app.
    + split; [discriminate|intros e [=]].
  - unfold reads. cbn [parse_ungrouped_atoms]. destruct (IHa ts) as [H1 H2]. destruct (parse_atom n ts) as [[[l s]|]|e|]; cbn [obind].
    + destruct (H1 l s eq_refl) as (l1 & Hne & Hz1 & He1). destruct (expect "," s) as [s'|] eqn:EC.
      * apply expect_eats in EC. destruct (IHu s') as [H3 H4].
        assert (HE : eats ts s' (l1 ++ [","])) by (eapply eats_trans; eassumption).
        destruct (parse_ungrouped_atoms n s') as [[[ds q]|]|e|]; cbn [obind].
        -- split; [|intros e [=]]. intros x rest [= _ <-]. destruct (H3 ds q eq_refl) as (l2 & _ & Hz2 & He2).
           exists ((l1 ++ [","]) ++ l2). split; [destruct l1; discriminate|]. split; [|eapply eats_trans; eassumption].
           apply no_zeros_app; [|exact Hz2]. apply no_zeros_app; [exact Hz1|]. apply no_zeros_one, mark_not_zero. simpl; auto.
        -- split; [discriminate|intros e [=]].
        -- split; [discriminate|]. intros e' [= <-]. destruct (H4 e eq_refl) as [-> H5]. split; [reflexivity|]. unfold eats in HE. rewrite HE. now apply open_end_app.
        -- split; [discriminate|intros e [=]].
      * split; [|intros e [=]]. intros x rest [= _ <-]. exists l1. auto.
    + split; [discriminate|intros e [=]].
    + split; [discriminate|]. intros e' [= <-]. apply (H2 e eq_refl).
    + split; [discriminate|intros e [=]].
Qed.
