(** * Written inference rules are read back *)

From Coq Require Import ZArith QArith String Ascii List Bool Arith Lia.
From Verif Require Import Py Effects Earley InferenceModule Lexer LexerProofs GrammarParser InferenceRuleParser RuleParserProofs RuleParserProofs2.
Import ListNotations.
Local Close Scope Q_scope.
Local Open Scope nat_scope.
Local Open Scope string_scope.
Local Open Scope list_scope.

(** ** the tokens of rules *)
Definition r_marks : list string := ["."; ","; ";"; ":-"; "("; ")"].
Definition no_newline (l : string) : Prop := forall a b, l <> append a (String newline b).
Definition first_digit (t : string) : bool := match t with String c _ => digit_char c | EmptyString => false end.
Definition r_word (t : string) : Prop := is_word t /\ first_digit t = false.
Definition r_tok (t : string) : Prop :=
  In t r_marks \/ r_word t \/ is_int t = true \/
  (exists a b, is_int a = true /\ is_int b = true /\ t = append a (append "." b)) \/
  (exists q b, In q [quote1; quote2] /\ well_quoted q b /\ b <> "" /\ t = String q (append b (String q ""))) \/
  (exists l, no_newline l /\ t = append "#" (append l (String newline ""))).
(** a digit, or a dot and a digit *)
Definition r_follows (t s : string) : Prop :=
  (r_word t -> ~ starts_word s) /\
  (first_digit t = true -> first_digit s = false) /\
  (is_int t = true -> starts "." s = true -> first_digit (drop 1 s) = false).
Definition r_junk (c : ascii) : Prop :=
  word_char c = false /\ ~ In c ["."; ","; ";"; ":"; "("; ")"; quote1; quote2; "#"]%char.

Lemma digit_word c : digit_char c = true -> word_char c = true.
Proof.
  unfold digit_char, word_char. cbv zeta. intros ->. reflexivity.
Qed.
Lemma word_not_digit c : word_char c = false -> digit_char c = false.
Proof. intros H. destruct (digit_char c) eqn:E; [|reflexivity]. apply digit_word in E. congruence. Qed.
Lemma r_tok_nonempty t : r_tok t -> t <> "".
Proof.
  intros [H|[[[H _] _]|[H|[(a & b & Ha & _ & ->)|[(q & b & _ & _ & _ & ->)|(l & _ & ->)]]]]].
  - intros ->. simpl in H. intuition discriminate.
  - exact H.
  - intros ->. discriminate.
  - destruct a; discriminate.
  - discriminate.
  - discriminate.
Qed.
Lemma r_junk_skipped c s : r_junk c -> rule_token (String c s) = 0.
Proof.
  intros [Hw Hn]. unfold rule_token, one_of, existsb.
  assert (H : forall d, In d ["."; ","; ";"; ":"; "("; ")"; quote1; quote2; "#"]%char -> Ascii.eqb c d = false).
  { intros d Hd. apply Ascii.eqb_neq. congruence. }
  rewrite !H by (simpl; auto 12). cbn [orb andb]. now rewrite (word_not_digit c Hw), Hw.
Qed.
Lemma line_run_found l s : no_newline l -> line_run (append l (String newline s)) = String.length l + 1.
Proof.
  induction l as [|c l IH]; intros H; [reflexivity|]. cbn [append line_run].
  assert (Hc : Ascii.eqb c newline = false).
  { apply Ascii.eqb_neq. intros ->. apply (H "" l). reflexivity. }
  rewrite Hc, IH; [cbn [String.length]; rewrite !Nat.add_1_r; cbn; lia|]. intros a b E. apply (H (String c a) b). cbn [append]. rewrite E. reflexivity.
Qed.
Lemma mark_free c d : word_char c = true -> word_char d = false -> Ascii.eqb c d = false.
Proof. apply word_not. Qed.
Lemma digits_follow s : first_digit s = false -> match s with String c _ => digit_char c = false | EmptyString => True end.
Proof. destruct s; [auto|intros H; exact H]. Qed.
Lemma digit_skip c s : digit_char c = true ->
  rule_token (String c s) = (let n := digit_run (String c s) in
        if starts "." (drop n (String c s)) then
          match digit_run (drop (n + 1) (String c s)) with O => n | m => n + 1 + m end
        else n).
Proof.
  intros H. pose proof (digit_word c H) as Hw. unfold rule_token, one_of, existsb. cbv zeta.
  rewrite !(word_not c) by (exact Hw || reflexivity). cbn [orb andb]. rewrite H. reflexivity.
Qed.
Lemma is_int_first t : is_int t = true -> exists c t', t = String c t' /\ digit_char c = true /\ all_digits t = true.
Proof.
  unfold is_int. intros H. apply andb_true_iff in H as [H1 H2]. destruct t as [|c t]; [discriminate|]. exists c, t.
  split; [reflexivity|]. split; [|exact H2]. cbn [all_digits] in H2. apply andb_true_iff in H2. apply H2.
Qed.
Lemma digit_run_zero s : first_digit s = false -> digit_run s = 0.
Proof. destruct s as [|c s]; [reflexivity|]. simpl. now intros ->. Qed.
Lemma r_tok_found t s : r_tok t -> r_follows t s -> rule_token (append t s) = String.length t.
Proof.
  intros [H|[[[H1 H2] H3]|[H|[(a & b & Ha & Hb & ->)|[(q & b & Hq & Hw & Hb & ->)|(l & Hl & ->)]]]]] (Hf1 & Hf2 & Hf3).
  - simpl in H. repeat (destruct H as [<-|H]; [reflexivity|]). destruct H.
  - assert (Hf : ~ starts_word s) by (apply Hf1; split; [split|]; assumption).
    destruct t as [|c t]; [congruence|]. cbn [append]. cbn [first_digit] in H3. unfold rule_token.
    pose proof H2 as H4. cbn [all_word] in H4. apply andb_true_iff in H4 as [Hc _]. unfold one_of, existsb.
    rewrite !(word_not c) by (exact Hc || reflexivity). cbn [orb andb]. rewrite H3, Hc.
    change (String c (append t s)) with (append (String c t) s). now apply word_run_found.
  - destruct (is_int_first t H) as (c & t' & -> & Hc & Hd). cbn [append]. rewrite (digit_skip c _ Hc). cbv zeta.
    change (String c (append t' s)) with (append (String c t') s).
    specialize (Hf2 Hc). specialize (Hf3 H).
    rewrite (digit_run_app (String c t') s Hd (digits_follow s Hf2)), drop_app, drop_drop, drop_app.
    destruct (starts "." s); [|reflexivity]. rewrite digit_run_zero; [reflexivity|]. now apply Hf3.
  - destruct (is_int_first a Ha) as (c & a' & -> & Hc & Hd). destruct (is_int_first b Hb) as (e & b' & -> & He & Hd').
    rewrite str_app_assoc. cbn [append]. rewrite (digit_skip c _ Hc). cbv zeta. specialize (Hf2 Hc).
    change (String c (append a' (String "." (String e (append b' s))))) with (append (String c a') (String "." (append (String e b') s))).
    rewrite (digit_run_app (String c a') (String "." (append (String e b') s)) Hd) by reflexivity.
    rewrite drop_drop, drop_app. cbn [starts]. change (Ascii.eqb "." ".") with true. cbn match. change (drop 1 (String "." (append (String e b') s))) with (append (String e b') s).
    rewrite (digit_run_app (String e b') s Hd' (digits_follow s Hf2)).
    change (String c (append a' (String "." (String e b')))) with (append (String c a') (String "." (String e b'))). rewrite str_app_length. cbn [String.length]. lia.
  - assert (Hqb : q <> backslash) by (intros ->; simpl in Hq; intuition discriminate).
    pose proof (quoted_found q b s Hqb Hw Hb) as E. revert E. cbn [append]. unfold rule_token.
    simpl in Hq. destruct Hq as [<-|[<-|[]]]; intros E; exact E.
  - rewrite !str_app_assoc. cbn [append]. unfold rule_token.
    change (one_of ["."; ","; ";"]%char "#") with false. change (one_of ["("; ")"]%char "#") with false. cbn match.
    change (Ascii.eqb "#" ":") with false. change (digit_char "#") with false. change (Ascii.eqb "#" quote1) with false.
    change (Ascii.eqb "#" quote2) with false. change (word_char "#") with false. change (Ascii.eqb "#" "#") with true. cbn [andb].
    rewrite line_run_found by exact Hl. cbn [String.length]. rewrite str_app_length. cbn [String.length].
    rewrite !Nat.add_1_r. cbn; lia.
Qed.
Definition r_laid_out := laid_out r_tok r_follows r_junk.
Lemma r_findall ts s : r_laid_out ts s -> findall rule_token s = ts.
Proof. apply findall_laid_out; [exact r_tok_found|exact r_tok_nonempty|exact r_junk_skipped]. Qed.
