(** * Written inference rules are read back *)

From Coq Require Import ZArith QArith Qreduction String Ascii List Bool Arith Lia.
From Verif Require Import Py Effects Earley InferenceModule Lexer LexerProofs GrammarParser InferenceRuleParser
  RuleParserProofs RuleParserProofs2 RuleParserProofs3 RuleSyntax.
Import ListNotations.
Local Close Scope Q_scope.
Local Open Scope nat_scope.
Local Open Scope string_scope.
Local Open Scope list_scope.

Section NodeInd.
  Variable P : node -> Prop.
  Hypothesis H1 : forall q s, P (NStr q s).
  Hypothesis H2 : forall d, P (NInt d).
  Hypothesis H3 : forall a b, P (NFloat a b).
  Hypothesis H4 : forall v, P (NVar v).
  Hypothesis H5 : forall k l, Forall P l -> P (NGroup k l).
  Hypothesis H6 : forall p l, Forall P l -> P (NAtom p l).
  Hypothesis H7 : forall l, Forall P l -> P (NOr l).
  Fixpoint node_ind' (x : node) : P x :=
    let all := fix all l : Forall P l := match l with [] => Forall_nil P | y :: l' => Forall_cons y (node_ind' y) (all l') end in
    match x with
    | NStr q s => H1 q s
    | NInt d => H2 d
    | NFloat a b => H3 a b
    | NVar v => H4 v
    | NGroup k l => H5 k l (all l)
    | NAtom p l => H6 p l (all l)
    | NOr l => H7 l (all l)
    end.
End NodeInd.

(** ** with enough fuel *)
Definition ev {A} (f : nat -> A) (r : A) : Prop := exists N, forall n, N <= n -> f n = r.

Lemma next_tok t ts : is_comment t = false -> next_token (t :: ts) = Some (t, ts).
Proof. unfold is_comment. intros H. cbn [next_token]. now rewrite H. Qed.
Lemma expect_tok t ts : is_comment t = false -> expect t (t :: ts) = Some ts.
Proof. intros H. unfold expect. rewrite next_tok by exact H. now rewrite String.eqb_refl. Qed.
Lemma expect_other t t' ts : is_comment t' = false -> t' <> t -> expect t (t' :: ts) = None.
Proof. intros H Hn. unfold expect. rewrite next_tok by exact H. apply String.eqb_neq in Hn. now rewrite Hn. Qed.
Lemma word_not_comment p : is_word p -> is_comment p = false.
Proof.
  intros [H1 H2]. destruct p as [|c p]; [congruence|]. cbn [all_word] in H2. apply andb_true_iff in H2 as [Hc _].
  unfold is_comment. cbn [first_char]. now apply word_not.
Qed.
Lemma word_not_mark p m : is_word p -> In m r_marks -> p <> m.
Proof. intros [_ H2] Hm ->. unfold r_marks in Hm. simpl in Hm. repeat (destruct Hm as [<-|Hm]; [discriminate H2|]). destruct Hm. Qed.
Lemma word_is_identifier p : is_word p -> is_identifier p = true.
Proof. intros [H1 H2]. unfold is_identifier. apply String.eqb_neq in H1. now rewrite H1, H2. Qed.
Lemma word_no_quote p q : is_word p -> word_char q = false -> Ascii.eqb (first_char p) q = false.
Proof.
  intros [H1 H2] Hq. destruct p as [|c p]; [congruence|]. cbn [all_word] in H2. apply andb_true_iff in H2 as [Hc _]. now apply word_not.
Qed.
Lemma word_not_int p : r_word p -> is_int p = false /\ float_parts p = None.
Proof.
  intros [[H1 _] H2]. destruct p as [|c p]; [congruence|]. cbn [first_digit] in H2. split.
  - unfold is_int. cbn [all_digits]. rewrite H2. now rewrite andb_false_r.
  - destruct (float_parts (String c p)) as [[a b]|] eqn:E; [|reflexivity]. apply float_parts_sound in E as (Ha & _ & E).
    destruct (is_int_first a Ha) as (d & a' & -> & Hd & _). cbn [append] in E. injection E as -> _. congruence.
Qed.

(** what is proved about a node *)
Definition as_term (x : node) : Prop :=
  forall rest, (bare x -> expect "," rest = None) -> ev (fun n => parse_term n (toks x ++ rest)) (Ok (Some (denote x, rest))).
Definition as_atom (x : node) : Prop :=
  forall rest, ev (fun n => parse_atom n (toks x ++ rest)) (Ok (Some (denote x, rest))).
Definition as_group (x : node) : Prop :=
  forall rest l, denote x = VList l -> (bare x -> expect "," rest = None) ->
    ev (fun n => parse_atoms n (toks x ++ rest)) (Ok (Some (l, rest))).
(** there are no brackets around it *)
Definition as_open (x : node) : Prop := forall rest, ev (fun n => parse_grouped_atoms n (toks x ++ rest)) (Ok None).
Definition correct (x : node) : Prop :=
  (wf_term x -> as_term x /\ term_true (denote x) = true) /\ (wf_atom x -> as_atom x /\ as_open x) /\ (wf_group x -> as_group x).

Tactic Notation "fuel" ident(n) integer(k) := do k (destruct n as [|n]; [lia|]).

Lemma sep_cons s x y l : sep s (x :: y :: l) = x ++ s :: sep s (y :: l).
Proof. reflexivity. Qed.

Lemma no_term rest : ev (fun n => parse_term n (")" :: rest)) (Ok None).
Proof. exists 8. intros n Hn. fuel n 8. reflexivity. Qed.

Lemma args_read args : wf_args args -> Forall correct args -> forall rest,
  ev (fun n => parse_terms n (sep "," (map toks args) ++ ")" :: rest)) (Ok (map denote args, ")" :: rest)).
Proof.
  induction 1 as [|x Hx|x y l Hx Hb Hl IH]; intros HF rest.
  - destruct (no_term rest) as [N HN]. exists (S N). intros n Hn. fuel n 1. cbn [map sep app parse_terms]. rewrite HN by lia. reflexivity.
  - inversion HF as [|? ? HC _]; subst. destruct (proj1 HC Hx) as [HT HV].
    destruct (HT (")" :: rest) ltac:(intros _; reflexivity)) as [N HN]. exists (S N). intros n Hn. fuel n 1. cbn [map sep parse_terms].
    rewrite HN by lia. cbn [obind]. rewrite HV. reflexivity.
  - inversion HF as [|? ? HC HF']; subst. destruct (proj1 HC Hx) as [HT HV]. destruct (IH HF' rest) as [N1 HN1].
    destruct (HT ("," :: sep "," (map toks (y :: l)) ++ ")" :: rest) ltac:(intros Hb'; contradiction)) as [N HN].
    exists (S (N + N1)). intros n Hn. fuel n 1. cbn [map]. rewrite sep_cons, <- app_assoc. cbn [app]. cbn [parse_terms].
    cbn [map] in HN. rewrite HN by lia. cbn [obind]. rewrite HV.
    rewrite expect_tok by reflexivity. cbn [map] in HN1. rewrite HN1 by lia. reflexivity.
Qed.

Lemma simple_read p args rest : r_word p -> wf_args args -> Forall correct args ->
  ev (fun n => parse_simple_atom n (toks (NAtom p args) ++ rest)) (Ok (Some (VStr p :: map denote args, rest))).
Proof.
  intros Hp Ha HF. destruct (args_read args Ha HF rest) as [N HN]. exists (S N). intros n Hn. fuel n 1.
  cbn [toks app]. rewrite <- app_assoc. cbn [app]. cbn [parse_simple_atom]. rewrite next_tok by (apply word_not_comment, Hp).
  rewrite word_is_identifier by apply Hp. rewrite expect_tok by reflexivity. rewrite HN by lia. cbn [obind fst snd].
  rewrite expect_tok by reflexivity. reflexivity.
Qed.
Lemma atom_read p args : r_word p -> wf_args args -> Forall correct args -> as_atom (NAtom p args).
Proof.
  intros Hp Ha HF rest. destruct (simple_read p args rest Hp Ha HF) as [N HN]. exists (S N). intros n Hn. fuel n 1.
  cbn [parse_atom]. rewrite HN by lia. reflexivity.
Qed.

Lemma group_value x : wf_group x -> exists k l, x = NGroup k l /\ l <> [] /\ Forall wf_atom l.
Proof. intros H. destruct H as [k l H1 H2]. eauto. Qed.

Lemma disjuncts_read ds : ds <> [] -> Forall wf_group ds -> Forall correct ds -> forall rest,
  ev (fun n => parse_disjuncts n (sep ";" (map toks ds) ++ ")" :: rest)) (Ok (Some (map denote ds, ")" :: rest))).
Proof.
  induction ds as [|x ds IH]; intros Hne HW HF rest; [congruence|]. inversion HW as [|? ? Hx HW']; subst. inversion HF as [|? ? HC HF']; subst.
  pose proof (proj2 (proj2 HC) Hx) as HG. destruct (group_value x Hx) as (k & l & -> & _ & _).
  destruct ds as [|y ds].
  - destruct (HG (")" :: rest) (map denote l) eq_refl ltac:(intros _; reflexivity)) as [N HN].
    exists (S N). intros n Hn. fuel n 1. cbn [map]. cbn [sep parse_disjuncts]. rewrite HN by lia. reflexivity.
  - destruct (IH ltac:(discriminate) HW' HF' rest) as [N1 HN1].
    destruct (HG (";" :: sep ";" (map toks (y :: ds)) ++ ")" :: rest) (map denote l) eq_refl ltac:(intros _; reflexivity)) as [N HN].
    exists (S (N + N1)). intros n Hn. fuel n 1. cbn [map]. rewrite sep_cons, <- app_assoc. cbn [app]. cbn [parse_disjuncts].
    cbn [map] in HN, HN1. rewrite HN by lia. cbn [obind]. rewrite expect_tok by reflexivity. rewrite HN1 by lia. reflexivity.
Qed.
Lemma or_read d1 d2 ds : Forall wf_group (d1 :: d2 :: ds) -> Forall correct (d1 :: d2 :: ds) -> as_atom (NOr (d1 :: d2 :: ds)).
Proof.
  intros HW HF rest. destruct (disjuncts_read (d1 :: d2 :: ds) ltac:(discriminate) HW HF rest) as [N HN].
  exists (S (S N)). intros n Hn. fuel n 2. cbn [toks]. cbn [app]. rewrite <- app_assoc. cbn [app].
  set (body := sep ";" (map toks (d1 :: d2 :: ds)) ++ ")" :: rest) in *.
  cbn [parse_atom]. change (parse_simple_atom (S n) ("(" :: body)) with (@Ok (option (list value * list string)) None).
  cbn [obind parse_disjuncted_atom]. rewrite expect_tok by reflexivity. rewrite HN by lia. cbn [obind]. rewrite expect_tok by reflexivity. reflexivity.
Qed.

Lemma atom_open p args : r_word p -> as_open (NAtom p args).
Proof.
  intros Hp rest. exists 1. intros n Hn. fuel n 1. cbn [toks app]. cbn [parse_grouped_atoms].
  rewrite expect_other; [reflexivity|apply word_not_comment, Hp|]. apply word_not_mark; [apply Hp|unfold r_marks; simpl; auto 8].
Qed.
Lemma or_open d1 d2 ds : wf_group d1 -> correct d1 -> as_open (NOr (d1 :: d2 :: ds)).
Proof.
  intros H1 HC rest. pose proof (proj2 (proj2 HC) H1) as HG. destruct (group_value d1 H1) as (k & l & -> & _ & _).
  destruct (HG (";" :: sep ";" (map toks (d2 :: ds)) ++ ")" :: rest) (map denote l) eq_refl ltac:(intros _; reflexivity)) as [N HN].
  exists (S N). intros n Hn. fuel n 1.
  replace (toks (NOr (NGroup k l :: d2 :: ds)) ++ rest)
    with ("(" :: toks (NGroup k l) ++ ";" :: sep ";" (map toks (d2 :: ds)) ++ ")" :: rest)
    by (cbn [toks map]; rewrite sep_cons; cbn [app]; rewrite <- !app_assoc; cbn [app]; rewrite <- ?app_assoc; reflexivity).
  cbn [parse_grouped_atoms]. rewrite expect_tok by reflexivity. rewrite HN by lia. cbn [obind].
  rewrite expect_other by (reflexivity || discriminate). reflexivity.
Qed.
Lemma conj_read l : l <> [] -> Forall wf_atom l -> Forall correct l -> forall rest, expect "," rest = None ->
  ev (fun n => parse_ungrouped_atoms n (sep "," (map toks l) ++ rest)) (Ok (Some (map denote l, rest))).
Proof.
  induction l as [|x l IH]; intros Hne HW HF rest HR; [congruence|]. inversion HW as [|? ? Hx HW']; subst. inversion HF as [|? ? HC HF']; subst.
  pose proof (proj1 (proj1 (proj2 HC) Hx)) as HA. destruct l as [|y l].
  - destruct (HA rest) as [N HN]. exists (S N). intros n Hn. fuel n 1. cbn [map sep parse_ungrouped_atoms]. rewrite HN by lia. cbn [obind].
    now rewrite HR.
  - destruct (IH ltac:(discriminate) HW' HF' rest HR) as [N1 HN1]. destruct (HA ("," :: sep "," (map toks (y :: l)) ++ rest)) as [N HN].
    exists (S (N + N1)). intros n Hn. fuel n 1. cbn [map]. rewrite sep_cons, <- app_assoc. cbn [app]. cbn [parse_ungrouped_atoms].
    cbn [map] in HN, HN1. rewrite HN by lia. cbn [obind]. rewrite expect_tok by reflexivity. rewrite HN1 by lia. reflexivity.
Qed.

Lemma sep_first s x l : exists more, sep s (map toks (x :: l)) = toks x ++ more.
Proof. destruct l as [|y l]; [exists []; cbn; now rewrite app_nil_r|]. cbn [map]. rewrite sep_cons. eexists. reflexivity. Qed.

Lemma repeat_snoc {A} (x : A) k : repeat x k ++ [x] = x :: repeat x k.
Proof. induction k as [|k IH]; [reflexivity|]. cbn [repeat app]. now rewrite IH. Qed.
Lemma group_read k l : l <> [] -> Forall wf_atom l -> Forall correct l -> as_group (NGroup k l).
Proof.
  intros Hne HW HF. induction k as [|k IH]; intros rest l' [= <-] HR.
  - specialize (HR I). destruct (conj_read l Hne HW HF rest HR) as [N HN]. destruct l as [|x l]; [congruence|].
    inversion HW as [|? ? Hx _]; subst. inversion HF as [|? ? HC _]; subst. destruct (proj1 (proj2 HC) Hx) as [_ HO].
    destruct (sep_first "," x l) as (more & Em).
    destruct (HO (more ++ rest)) as [N1 HN1]. exists (S (N + N1)). intros n Hn. fuel n 1.
    cbn [toks repeat]. rewrite app_nil_r. change ([] ++ ?z) with z. cbn [parse_atoms].
    assert (E1 : parse_grouped_atoms n (sep "," (map toks (x :: l)) ++ rest) = Ok None) by (rewrite Em, <- app_assoc; apply HN1; lia).
    rewrite E1. cbn [obind]. apply HN. lia.
  - destruct (IH (")" :: rest) (map denote l) eq_refl ltac:(intros _; reflexivity)) as [N HN].
    exists (S (S N)). intros n Hn. fuel n 2.
    replace (toks (NGroup (S k) l) ++ rest) with ("(" :: toks (NGroup k l) ++ ")" :: rest).
    2:{ cbn [toks repeat app]. rewrite <- !app_assoc. rewrite <- (repeat_snoc ")" k). rewrite <- !app_assoc. reflexivity. }
    cbn [parse_atoms parse_grouped_atoms]. rewrite expect_tok by reflexivity. rewrite HN by lia. cbn [obind].
    rewrite expect_tok by reflexivity. reflexivity.
Qed.

Lemma quote_first q s : first_char (in_quotes q s) = q.
Proof. reflexivity. Qed.
Lemma str_read q s : q = quote1 \/ q = quote2 -> s <> "" -> as_term (NStr q s) /\ term_true (denote (NStr q s)) = true.
Proof.
  intros Hq Hs. assert (Hqb : q <> backslash) by (destruct Hq; subst; discriminate). split.
  - intros rest _. exists 1. intros n Hn. fuel n 1. cbn [toks app denote]. cbn [parse_term].
    rewrite next_tok by (unfold is_comment; rewrite quote_first; destruct Hq; subst; reflexivity).
    rewrite quote_first, inside_in_quotes. destruct Hq as [-> | ->].
    + rewrite Ascii.eqb_refl. now rewrite unescape_escape.
    + change (Ascii.eqb quote2 quote1) with false. rewrite Ascii.eqb_refl. cbn match. now rewrite unescape_escape.
  - cbn [denote term_true]. apply String.eqb_neq in Hs. now rewrite Hs.
Qed.
Lemma digit_first_not c q : digit_char c = true -> word_char q = false -> Ascii.eqb c q = false.
Proof. intros Hc Hq. apply word_not; [now apply digit_word|exact Hq]. Qed.
Lemma int_read d : is_int d = true -> digits_value 0 d <> 0%Z -> as_term (NInt d) /\ term_true (denote (NInt d)) = true.
Proof.
  intros Hd Hz. destruct (is_int_first d Hd) as (c & d' & E & Hc & _). split.
  - intros rest _. exists 1. intros n Hn. fuel n 1. cbn [toks app denote]. cbn [parse_term].
    assert (Hf : first_char d = c) by (subst; reflexivity).
    rewrite next_tok by (unfold is_comment; rewrite Hf; now apply digit_first_not).
    rewrite Hf, !(digit_first_not c) by (exact Hc || reflexivity). rewrite int_no_float, Hd by exact Hd.
    now rewrite int_of_digits_value.
  - cbn [denote term_true]. apply Z.eqb_neq in Hz. now rewrite Hz.
Qed.
Lemma float_nonzero a b : is_int a = true -> is_int b = true -> ~ (digits_value 0 a = 0%Z /\ digits_value 0 b = 0%Z) ->
  ~ (inject_Z (digits_value 0 a) + inject_Z (digits_value 0 b) / inject_Z (10 ^ Z.of_nat (String.length b)) == 0)%Q.
Proof.
  intros Ha Hb Hz. apply andb_true_iff in Ha as [_ Ha], Hb as [_ Hb].
  pose proof (digits_value_nonneg a Ha 0 ltac:(lia)). pose proof (digits_value_nonneg b Hb 0 ltac:(lia)).
  assert (HP : (0 < 10 ^ Z.of_nat (String.length b))%Z) by (apply Z.pow_pos_nonneg; lia).
  set (p := (10 ^ Z.of_nat (String.length b))%Z) in *. destruct p as [|p|p]; try lia.
  unfold Qeq, Qdiv, Qplus, Qmult, Qinv, inject_Z. cbn [Qnum Qden]. nia.
Qed.
Lemma float_read a b : is_int a = true -> is_int b = true -> ~ (digits_value 0 a = 0%Z /\ digits_value 0 b = 0%Z) ->
  as_term (NFloat a b) /\ term_true (denote (NFloat a b)) = true.
Proof.
  intros Ha Hb Hz. destruct (is_int_first a Ha) as (c & a' & E & Hc & _). split.
  - intros rest _. exists 1. intros n Hn. fuel n 1. cbn [toks app denote]. cbn [parse_term].
    assert (Hf : first_char (append a (append "." b)) = c) by (subst; reflexivity).
    rewrite next_tok by (unfold is_comment; rewrite Hf; now apply digit_first_not).
    rewrite Hf, !(digit_first_not c) by (exact Hc || reflexivity). rewrite float_parts_complete by assumption.
    now rewrite float_of_parts_value.
  - cbn [denote]. unfold term_true. apply negb_true_iff. destruct (Qeq_bool _ 0) eqn:E'; [|reflexivity].
    apply Qeq_bool_iff in E'. rewrite Qred_correct in E'. destruct (float_nonzero a b Ha Hb Hz E').
Qed.
Lemma variable_is_word v : is_variable v = true -> r_word v.
Proof.
  destruct v as [|c v]; [discriminate|]. unfold is_variable. cbv zeta. rewrite !andb_true_iff. intros ((H1 & H2) & H3). split; [split; [discriminate|]|].
  - cbn [all_word]. rewrite H3, andb_true_r. unfold word_char. rewrite H1, H2. now rewrite !orb_true_r.
  - cbn [first_digit]. unfold digit_char. cbv zeta. apply Nat.leb_le in H1, H2. apply andb_false_iff. right. apply Nat.leb_gt. lia.
Qed.
Lemma var_read v : is_variable v = true -> as_term (NVar v) /\ term_true (denote (NVar v)) = true.
Proof.
  intros Hv. pose proof (variable_is_word v Hv) as Hw. split; [|reflexivity].
  intros rest _. exists 1. intros n Hn. fuel n 1. cbn [toks app denote]. cbn [parse_term].
  rewrite next_tok by (apply word_not_comment, Hw). rewrite !(word_no_quote v) by (apply Hw || reflexivity).
  destruct (word_not_int v Hw) as [-> ->]. now rewrite Hv.
Qed.
Lemma list_read k l : as_group (NGroup k l) -> wf_group (NGroup k l) -> plain_start (NGroup k l) ->
  as_term (NGroup k l) /\ term_true (denote (NGroup k l)) = true.
Proof.
  intros HG HW HP. inversion HW as [k' l' Hne HA E]; subst. split; [|destruct l; [congruence|reflexivity]].
  intros rest HR. destruct (HG rest (map denote l) eq_refl HR) as [N HN]. exists (S N). intros n Hn. fuel n 1.
  assert (HF : exists t more, toks (NGroup k l) ++ rest = t :: more /\ is_comment t = false /\
     Ascii.eqb (first_char t) quote1 = false /\ Ascii.eqb (first_char t) quote2 = false /\ float_parts t = None /\ is_int t = false /\ is_variable t = false).
  { destruct k as [|k].
    - destruct l as [|x l]; [congruence|]. inversion HA as [|? ? Hx _]; subst. destruct (sep_first "," x l) as (more & Em).
      cbn [toks repeat]. rewrite app_nil_r. change ([] ++ ?z) with z. rewrite Em, <- app_assoc. destruct Hx as [p args Hp Ha|d1 d2 ds Hd].
      + cbn [toks app]. eexists p, _. split; [reflexivity|]. split; [apply word_not_comment, Hp|].
        rewrite !(word_no_quote p) by (apply Hp || reflexivity). destruct (word_not_int p Hp) as [-> ->]. cbn [plain_start] in HP. auto.
      + cbn [toks app]. eexists "(", _. repeat split; reflexivity.
    - cbn [toks repeat app]. eexists "(", _. repeat split; reflexivity. }
  destruct HF as (t & more & Et & Hc & H1 & H2 & H3 & H4 & H5). cbn [parse_term]. specialize (HN n ltac:(lia)). cbv beta in HN.
  rewrite Et in *. rewrite next_tok by exact Hc. rewrite H1, H2, H3, H4, H5, HN. reflexivity.
Qed.

Lemma all_correct x : correct x.
Proof.
  induction x as [q s|d|a b|v|k l IH|p l IH|l IH] using node_ind'.
  - split; [|split]; intros H; inversion H; subst; try (now apply str_read).
  - split; [|split]; intros H; inversion H; subst; try (now apply int_read).
  - split; [|split]; intros H; inversion H; subst; try (now apply float_read).
  - split; [|split]; intros H; inversion H; subst; try (now apply var_read).
  - assert (HG : wf_group (NGroup k l) -> as_group (NGroup k l)).
    { intros H. inversion H as [k' l' Hne HA E]; subst. now apply group_read. }
    split; [|split]; [|intros H; inversion H|exact HG]. intros H. inversion H as [| | | |x Hg Hp E]; subst. apply list_read; auto.
  - split; [|split]; intros H; inversion H; subst.
    + match goal with X : wf_group _ |- _ => inversion X end.
    + split; [now apply atom_read|now apply atom_open].
  - split; [|split]; intros H; inversion H; subst.
    + match goal with X : wf_group _ |- _ => inversion X end.
    + inversion IH as [|? ? HC _]; subst. split; [now apply or_read|]. apply or_open; [|exact HC].
      match goal with X : Forall wf_group _ |- _ => inversion X; subst; assumption end.
Qed.
Lemma all_correct_list l : Forall correct l.
Proof. apply Forall_forall. intros x _. apply all_correct. Qed.

(** ** rules *)
Lemma rule_read r rest : wf_rule r -> ev (fun n => parse_rule n (rule_toks r ++ rest)) (Ok (Some (rule_denote r, rest))).
Proof.
  intros [Hh Hb]. inversion Hh as [p args Hp Ha E|]; subst. destruct r as [p args [b|]]; cbn [s_pred s_args s_body] in *.
  - set (after := "." :: rest). destruct (simple_read p args (":-" :: toks b ++ after) Hp Ha (all_correct_list args)) as [N HN].
    pose proof (proj2 (proj2 (all_correct b)) Hb) as HG. destruct (group_value b Hb) as (k & l & -> & _ & _).
    destruct (HG after (map denote l) eq_refl ltac:(intros _; reflexivity)) as [N1 HN1].
    exists (N + N1). intros n Hn. unfold rule_toks. cbn [s_pred s_args s_body]. rewrite <- app_assoc. cbn [app]. rewrite <- app_assoc. cbn [app]. fold after.
    unfold parse_rule. rewrite HN by lia. cbn [obind]. rewrite expect_tok by reflexivity. rewrite HN1 by lia. cbn [obind]. unfold after.
    rewrite expect_tok by reflexivity. reflexivity.
  - destruct (simple_read p args ("." :: rest) Hp Ha (all_correct_list args)) as [N HN].
    exists N. intros n Hn. unfold rule_toks. cbn [s_pred s_args s_body]. rewrite <- app_assoc. cbn [app].
    unfold parse_rule. rewrite HN by lia. cbn [obind]. rewrite expect_other by (reflexivity || discriminate). cbn [obind].
    rewrite expect_tok by reflexivity. reflexivity.
Qed.
Lemma rules_read rs : Forall wf_rule rs -> exists N, forall n m, N <= n -> N <= m ->
  parse_rule_list n m (flat_map rule_toks rs) = Ok (map rule_denote rs, []).
Proof.
  induction 1 as [|r rs Hr _ (N & IH)].
  - exists 1. intros n m Hn Hm. destruct n as [|n]; [lia|]. destruct m as [|m]; [lia|]. reflexivity.
  - destruct (rule_read r (flat_map rule_toks rs) Hr) as [N1 HN1]. exists (S (N + N1)). intros n m Hn Hm. destruct m as [|m]; [lia|].
    cbn [flat_map parse_rule_list]. rewrite HN1 by lia. cbn [obind]. rewrite IH by lia. reflexivity.
Qed.
Lemma tokens_read rs : Forall wf_rule rs -> ev (fun n => parse_tokens n (flat_map rule_toks rs)) (Ok (Some (map rule_denote rs))).
Proof.
  intros H. destruct (rules_read rs H) as [N HN]. exists N. intros n Hn. unfold parse_tokens. rewrite HN by lia. reflexivity.
Qed.
(** any amount of fuel that the parser does not exhaust *)
Lemma tokens_result ts r : ev (fun n => parse_tokens n ts) r -> r <> OutOfFuel -> forall n, 7 * size ts + 5 < n -> parse_tokens n ts = r.
Proof.
  intros [N HN] Hr n Hn. destruct (tokens_more_fuel n (N + n) ts ltac:(lia)) as [E|E].
  - destruct (tokens_enough n ts Hn E).
  - rewrite E. apply HN. lia.
Qed.
