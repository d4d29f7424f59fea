(** * C79: texts are split as the regular expressions of the library say *)

From Coq Require Import String Ascii List Bool Arith Lia.
From Verif Require Import Py Effects InferenceModule Earley EarleyProofs3 Lexer InferenceRuleParser Regex RegexProofs RegexSpec RegexProofs2 RegexProofs3 RegexSyntax RegexProofs4.
Import ListNotations.
Local Open Scope nat_scope.
Local Open Scope string_scope.
Local Open Scope list_scope.

(** ** matching *)

(** Matching finds the texts that a pattern describes, and no others. *)
Theorem C79_matching_finds_the_described_texts : forall r s n,
  In n (matches r s) <-> n <= String.length s /\ describes r (take n s) (drop n s).
Proof. exact matches_exactly. Qed.
Print Assumptions C79_matching_finds_the_described_texts.

Example C79_matching_example :
  exists r, compile "(a|ab)(c|bcd)*d?" = Some r /\ matches r "abcd" = [4; 1; 4; 3; 2] /\ re_match r "abcd" = Some 4 /\
    describes r "abc" "d" /\ ~ describes r "" "abcd".
Proof.
  eexists. split; [reflexivity|]. split; [reflexivity|]. split; [reflexivity|]. split.
  - apply (proj1 (matches_exactly _ "abcd" 3)). simpl. auto.
  - intros H. apply match_complete in H. vm_compute in H. intuition discriminate.
Qed.

(** Of these it chooses the one that is reached by the preferred choices: the
    earliest choice counts most.  There is a choice whenever there is a match. *)
Theorem C79_the_first_match_is_chosen : forall r s,
  (forall n, re_match r s = Some n <->
     exists cs, path r s n cs /\ forall n' cs', path r s n' cs' -> (n' = n /\ cs' = cs) \/ earlier cs cs') /\
  (forall n, (exists cs, path r s n cs) <-> n <= String.length s /\ describes r (take n s) (drop n s)) /\
  (re_match r s = None <-> forall n cs, ~ path r s n cs).
Proof.
  intros r s. split; [apply first_match|]. split.
  - intros n. now rewrite <- described_path, matches_exactly.
  - unfold re_match. split.
    + intros H n cs Hp. assert (Hn : In n (matches r s)) by (apply described_path; eauto). destruct (matches r s); [destruct Hn|discriminate].
    + intros H. destruct (matches r s) as [|n l] eqn:E; [reflexivity|].
      assert (Hn : In n (matches r s)) by (rewrite E; now left). apply described_path in Hn as (cs & Hp). now apply H in Hp.
Qed.
Print Assumptions C79_the_first_match_is_chosen.

(** The alternatives are tried from left to right, a greedy repetition takes
    all it can, a lazy one no more than it must, and a repetition of what may be
    empty ends. *)
Example C79_first_match_example :
  option_map (fun r => re_match r "abcd") (compile "ab|abcd") = Some (Some 2) /\
  option_map (fun r => re_match r "abab,ab") (compile "(?:ab)*") = Some (Some 4) /\
  option_map (fun r => re_match r "'a','b'") (compile "'.*'") = Some (Some 7) /\
  option_map (fun r => re_match r "'a','b'") (compile "'.*?'") = Some (Some 3) /\
  option_map (fun r => re_match r "aab") (compile "(a?)*b") = Some (Some 3).
Proof. repeat split; vm_compute; reflexivity. Qed.

(** ** reading patterns *)

(** A pattern stands for what is written: alternatives of sequences of repeated
    characters, escapes, classes and groups.  Nothing else is read. *)
Theorem C79_patterns_are_read_as_written : forall s r,
  compile s = Some r <->
  exists a, good_alts a /\ (s = show_alts a \/ s = String "^" (show_alts a)) /\ r = re_alts a.
Proof. exact compile_iff. Qed.
Print Assumptions C79_patterns_are_read_as_written.

Example C79_reading_example :
  let a := Or (Piece (AGroup false (One (Piece (AEscaped "w" IWord) (AtLeastOne true) Nothing))) (Many false)
                 (Piece (AClass true (CRange (Plain "a") (Plain "z") (CDash (Escaped "]" (IChar "]"))))) Once Nothing))
              (One (Piece (AChar "x") (AtMostOne false) (Piece ADollar Once Nothing))) in
  good_alts a /\ show_alts a = "(?:\w+?)*[^a-z\]-]|x?$".
Proof.
  split; [|reflexivity].
  assert (~ is_letter_or_digit "]") by (unfold is_letter_or_digit; cbn; lia).
  cbn. repeat split; try discriminate; try (now constructor); try (now right; constructor).
  - exists "a"%char, "z"%char. cbn. repeat split; lia.
  - intros F. intuition discriminate.
Qed.

(** ** tokens *)

(** The tokens of a grammar rule are the results of [re.findall]. *)
Theorem C79_grammar_tokens : exists r, compile grammar_pattern = Some r /\
  forall s, findall grammar_token s = re_findall r s.
Proof.
  exists grammar_re. split; [exact compile_grammar|]. intros s. symmetry. apply findall_re. exact grammar_token_re.
Qed.
Print Assumptions C79_grammar_tokens.

(** The same for inference rules. *)
Theorem C79_rule_tokens : exists r, compile rule_pattern = Some r /\
  forall s, findall rule_token s = re_findall r s.
Proof.
  exists rule_re. split; [exact compile_rule|]. intros s. symmetry. apply findall_re. exact rule_token_re.
Qed.
Print Assumptions C79_rule_tokens.

Example C79_tokens_example :
  findall grammar_token "s(V) -> /\w+/ np(E1)+'''s'" = ["s"; "("; "V"; ")"; "->"; "/\w+/"; "np"; "("; "E1"; ")"; "+"; "'s'"] /\
  findall rule_token "p(A) :- q(A, 12.5), r('it\'s')." =
    ["p"; "("; "A"; ")"; ":-"; "q"; "("; "A"; ","; "12.5"; ")"; ","; "r"; "("; "'it\'s'"; ")"; "."].
Proof. split; reflexivity. Qed.

(** The class of a token is decided by the pattern for it.  [$] also matches
    before a final newline; of the tokens of a rule only comments end with one. *)
Theorem C79_token_classes :
  exists identifier variable int float predicate,
    compile identifier_pattern = Some identifier /\ compile variable_pattern = Some variable /\
    compile int_pattern = Some int /\ compile float_pattern = Some float /\
    compile predicate_pattern = Some predicate /\
    (forall s, re_fullmatch predicate s = valid_predicate s) /\
    (forall s, no_final_newline s ->
       found (re_match identifier s) = is_identifier s /\
       found (re_match variable s) = is_variable s /\
       found (re_match int s) = is_int s /\
       found (re_match float s) = match float_parts s with Some _ => true | None => false end).
Proof.
  exists identifier_re, variable_re, int_re, float_re, predicate_re.
  repeat (split; [reflexivity|]). split; [exact predicate_matches|]. intros s Hs.
  repeat split; [apply identifier_matches|apply variable_matches|apply int_matches|apply float_matches]; exact Hs.
Qed.
Print Assumptions C79_token_classes.

(** every token of a rule without newline, or a comment *)
Lemma take_snoc n : forall s, n < String.length s -> exists c, String.get n s = Some c /\ take (S n) s = append (take n s) (String c "").
Proof.
  induction n as [|n IH]; intros [|c s] H; simpl in H; try lia.
  - exists c. split; reflexivity.
  - destruct (IH s) as (d & Hd & E); [lia|]. exists d. split; [exact Hd|]. cbn [take append] in *. now rewrite <- E.
Qed.

Lemma word_run_get n : forall s, n < word_run s -> exists c, String.get n s = Some c /\ word_char c = true.
Proof.
  induction n as [|n IH]; intros [|c s] H; simpl in H; try lia; destruct (word_char c) eqn:E; try lia.
  - exists c. split; [reflexivity|exact E].
  - destruct (IH s) as (d & Hd & Hw); [lia|]. exists d. split; [exact Hd|exact Hw].
Qed.
Lemma digit_run_get n : forall s, n < digit_run s -> exists c, String.get n s = Some c /\ digit_char c = true.
Proof.
  induction n as [|n IH]; intros [|c s] H; simpl in H; try lia; destruct (digit_char c) eqn:E; try lia.
  - exists c. split; [reflexivity|exact E].
  - destruct (IH s) as (d & Hd & Hw); [lia|]. exists d. split; [exact Hd|exact Hw].
Qed.
Lemma get_drop n : forall m s, String.get m (drop n s) = String.get (n + m) s.
Proof. induction n as [|n IH]; intros m [|c s]; cbn [drop Nat.add]; auto. rewrite IH. reflexivity. Qed.

Lemma quoted_rest_get q : forall s n, quoted_rest q s = Some (S n) -> String.get n s = Some q.
Proof.
  intros s. remember (String.length s) as k eqn:Ek. revert s Ek.
  induction k as [k IH] using lt_wf_ind; intros s -> n. destruct s as [|c s]; [discriminate|].
  cbn [quoted_rest]. destruct (Ascii.eqb_spec c q) as [->|Hc]; [intros [= <-]; reflexivity|].
  assert (G : option_map S (quoted_rest q s) = Some (S n) -> String.get n (String c s) = Some q).
  { destruct (quoted_rest q s) as [m|] eqn:E; [|discriminate]. intros [= ->].
    destruct n as [|n]; [|cbn [String.get]; apply (IH (String.length s)); auto].
    exfalso. clear -E. destruct s as [|d s]; [discriminate|]. cbn [quoted_rest] in E.
    destruct (Ascii.eqb d q); [discriminate|]. destruct (Ascii.eqb d backslash).
    - destruct s as [|e s]; [discriminate|]. destruct (Ascii.eqb e q).
      + destruct (quoted_rest q s); discriminate.
      + destruct (quoted_rest q _); discriminate.
    - destruct (quoted_rest q s); discriminate. }
  destruct (Ascii.eqb_spec c backslash) as [->|Hb]; [|exact G].
  destruct s as [|d s]; [discriminate|]. destruct (Ascii.eqb_spec d q) as [->|Hd]; [|exact G].
  destruct (quoted_rest q s) as [m|] eqn:E; intros [= <-]; [|reflexivity].
  cbn [String.get]. destruct m as [|m].
  - exfalso. clear -E. destruct s as [|d s]; [discriminate|]. cbn [quoted_rest] in E.
    destruct (Ascii.eqb d q); [discriminate|]. destruct (Ascii.eqb d backslash).
    + destruct s as [|e s]; [discriminate|]. destruct (Ascii.eqb e q).
      * destruct (quoted_rest q s); discriminate.
      * destruct (quoted_rest q _); discriminate.
    + destruct (quoted_rest q s); discriminate.
  - apply (IH (String.length s)); auto. simpl. lia.
Qed.

Lemma append_one_inj a : forall b c d, append a (String c "") = append b (String d "") -> c = d.
Proof.
  induction a as [|x a IH]; intros [|y b] c d E; simpl in E.
  - now injection E.
  - injection E as _ E. destruct b; discriminate.
  - injection E as _ E. destruct a; discriminate.
  - injection E as _ E. now apply (IH b).
Qed.

Lemma ends_not_newline n s c : String.get n s = Some c -> c <> newline -> no_final_newline (take (S n) s).
Proof.
  intros Hg Hc t E. assert (Hl : n < String.length s).
  { clear -Hg. revert s Hg. induction n as [|n IH]; intros [|d s] H; simpl in *; try discriminate; try lia.
    specialize (IH _ H). lia. }
  destruct (take_snoc n s Hl) as (d & Hd & Et). rewrite Hd in Hg. injection Hg as ->. rewrite Et in E.
  apply append_one_inj in E. congruence.
Qed.

Lemma quoted_ends q s n : q <> newline -> quoted q s = S n -> no_final_newline (take (S n) s).
Proof.
  intros Hq. unfold quoted. destruct s as [|c [|d s]]; try discriminate.
  destruct (Ascii.eqb c q && negb (Ascii.eqb d q)); [|discriminate].
  destruct (quoted_rest q (String d s)) as [m|] eqn:E; [|discriminate]. intros [= ->].
  destruct n as [|n].
  - exfalso. revert E. cbn [quoted_rest]. destruct (Ascii.eqb d q); [discriminate|]. destruct (Ascii.eqb d backslash).
    + destruct s as [|e s]; [discriminate|]. destruct (Ascii.eqb e q).
      * destruct (quoted_rest q s); discriminate.
      * destruct (quoted_rest q _); discriminate.
    + destruct (quoted_rest q s); discriminate.
  - apply quoted_rest_get in E. now apply (ends_not_newline _ (String c (String d s)) q).
Qed.

Lemma word_not_newline c : word_char c = true -> c <> newline.
Proof. intros H ->. discriminate. Qed.
Lemma digit_not_newline c : digit_char c = true -> c <> newline.
Proof. intros H ->. discriminate. Qed.

Lemma rule_token_ends s n : rule_token s = S n -> starts "#" s = true \/ no_final_newline (take (S n) s).
Proof.
  destruct s as [|c s]; [discriminate|]. unfold rule_token, one_of, existsb. cbv zeta.
  assert (One : forall d, Ascii.eqb c d = true -> d <> newline -> no_final_newline (take 1 (String c s))).
  { intros d E Hd. apply Ascii.eqb_eq in E. subst d. apply (ends_not_newline 0 (String c s) c); auto. }
  destruct (Ascii.eqb c "." || (Ascii.eqb c "," || (Ascii.eqb c ";" || false))) eqn:E1.
  { intros [= <-]. right. repeat rewrite orb_true_iff in E1. destruct E1 as [E|[E|[E|E]]]; try discriminate; eapply One; eauto; discriminate. }
  destruct (Ascii.eqb c ":" && starts "-" s) eqn:E2.
  { intros [= <-]. right. apply andb_true_iff in E2. destruct E2 as [_ E2]. destruct s as [|d s]; [discriminate|].
    cbn [starts] in E2. apply Ascii.eqb_eq in E2. subst d. apply (ends_not_newline 1 _ "-"%char); [reflexivity|discriminate]. }
  destruct (Ascii.eqb c "(" || (Ascii.eqb c ")" || false)) eqn:E3.
  { intros [= <-]. right. repeat rewrite orb_true_iff in E3. destruct E3 as [E|[E|E]]; try discriminate; eapply One; eauto; discriminate. }
  destruct (digit_char c) eqn:E4.
  { intros H. right. assert (W : forall m, digit_run (String c s) = S m -> no_final_newline (take (S m) (String c s))).
    { intros m Hm. destruct (digit_run_get m (String c s)) as (d & Hd & Hw); [lia|].
      apply (ends_not_newline _ _ d Hd). now apply digit_not_newline. }
    destruct (starts "." (drop (digit_run (String c s)) (String c s))) eqn:Es; [|now apply W].
    destruct (digit_run (drop (digit_run (String c s) + 1) (String c s))) as [|m] eqn:Em; [now apply W|].
    destruct (digit_run_get m (drop (digit_run (String c s) + 1) (String c s))) as (d & Hd & Hw); [lia|].
    rewrite get_drop in Hd. assert (Hn : digit_run (String c s) + 1 + m = n) by lia. rewrite Hn in Hd.
    apply (ends_not_newline _ _ d Hd). now apply digit_not_newline. }
  destruct (Ascii.eqb c quote1); [intros H; right; apply (quoted_ends quote1); [discriminate|exact H]|].
  destruct (Ascii.eqb c quote2); [intros H; right; apply (quoted_ends quote2); [discriminate|exact H]|].
  destruct (word_char c) eqn:E5.
  { intros H. right. destruct (word_run_get n (String c s)) as (d & Hd & Hw); [rewrite H; lia|].
    apply (ends_not_newline _ _ d Hd). now apply word_not_newline. }
  destruct (Ascii.eqb c "#") eqn:E6; [|discriminate]. intros _. left. cbn [starts]. apply Ascii.eqb_eq in E6. now subst c.
Qed.

Lemma tokens_are_pieces token s t : In t (findall token s) -> exists k u n, drop k s = u /\ token u = S n /\ t = take (S n) u.
Proof.
  unfold findall. assert (G : forall s skip, In t (find_from token skip s) -> exists k u n, drop k s = u /\ token u = S n /\ t = take (S n) u).
  { intros u. induction u as [|c u IH]; intros skip H; [contradiction|]. cbn [find_from] in H.
    assert (D : forall k, In t (find_from token k u) -> exists k u0 n, drop k (String c u) = u0 /\ token u0 = S n /\ t = take (S n) u0).
    { intros k Hk. destruct (IH k Hk) as (j & v & n & E1 & E2 & E3). exists (S j), v, n. auto. }
    destruct skip as [|k]; [|now apply (D k)]. destruct (token (String c u)) as [|n] eqn:E; [now apply (D 0)|].
    destruct H as [<-|H]; [|now apply (D n)]. exists 0, (String c u), n. auto. }
  apply G.
Qed.

(** The classes of all tokens of a rule text are those of the patterns. *)
Theorem C79_classes_of_rule_tokens : forall identifier variable int float,
    compile identifier_pattern = Some identifier -> compile variable_pattern = Some variable ->
    compile int_pattern = Some int -> compile float_pattern = Some float ->
    forall text token, In token (findall rule_token text) ->
       found (re_match identifier token) = is_identifier token /\
       found (re_match variable token) = is_variable token /\
       found (re_match int token) = is_int token /\
       found (re_match float token) = match float_parts token with Some _ => true | None => false end.
Proof.
  intros i v n f Ei Ev En Ef text token Ht.
  rewrite compile_identifier in Ei. rewrite compile_variable in Ev. rewrite compile_int in En. rewrite compile_float in Ef.
  injection Ei as <-. injection Ev as <-. injection En as <-. injection Ef as <-.
  destruct (tokens_are_pieces _ _ _ Ht) as (k & u & m & _ & Hu & ->).
  destruct (rule_token_ends u m Hu) as [H|Hs].
  - destruct u as [|c u]; [discriminate|]. cbn [starts] in H. apply Ascii.eqb_eq in H. subst c. repeat split; reflexivity.
  - repeat split; [apply identifier_matches|apply variable_matches|apply int_matches|apply float_matches]; exact Hs.
Qed.
Print Assumptions C79_classes_of_rule_tokens.

Example C79_classes_example :
  map (fun t => (is_identifier t, is_variable t, is_int t, match float_parts t with Some _ => true | None => false end))
      ["parent"; "E1"; "12"; "12.5"; ":-"] =
  [(true, false, false, false); (true, true, false, false); (true, false, true, false); (false, false, false, true); (false, false, false, false)].
Proof. reflexivity. Qed.

(** Alone, the pattern of identifiers accepts a final newline. *)
Theorem C79_final_newline_refuted : exists identifier,
  compile identifier_pattern = Some identifier /\
  found (re_match identifier (append "abc" nl)) = true /\ is_identifier (append "abc" nl) = false.
Proof. exists identifier_re. repeat split; reflexivity. Qed.
Print Assumptions C79_final_newline_refuted.

(** ** white space *)
Theorem C79_white_space : exists r, compile space_pattern = Some r /\ forall s, normalize s = re_sub r " " s.
Proof. exists rspaces. split; [exact compile_spaces|]. intros s. now rewrite sub_spaces. Qed.
Print Assumptions C79_white_space.

(** the characters that are white space: tab to carriage return, the four
    separators, space, next line and no-break space *)
Theorem C79_white_space_characters : forall c,
  is_space c = true <-> In (nat_of_ascii c) [9; 10; 11; 12; 13; 28; 29; 30; 31; 32; 133; 160].
Proof.
  intros c. assert (E : is_space c = existsb (Nat.eqb (nat_of_ascii c)) [9; 10; 11; 12; 13; 28; 29; 30; 31; 32; 133; 160])
    by (destruct c as [[] [] [] [] [] [] [] []]; reflexivity).
  rewrite E, existsb_exists. split; [intros (n & Hn & Hc); apply Nat.eqb_eq in Hc; now subst|intros H; exists (nat_of_ascii c); split; [exact H|apply Nat.eqb_refl]].
Qed.
Print Assumptions C79_white_space_characters.

Example C79_white_space_example : normalize (append "Who  is" (append nl (append nl " there?"))) = "Who is there?".
Proof. reflexivity. Qed.

(** ** where a quoted text ends *)

(** [s] is what follows the opening quote.  A quoted text ends at the first
    quote that does not follow a backslash.  When all quotes follow a backslash
    it ends at the last one.  Without quotes there is no quoted text. *)
Theorem C79_quoted_text_ends : forall q c s, In q [quote1; quote2; slash] -> c <> q ->
  (forall n, quote_at q (String c s) n -> ~ after_backslash (String c s) n ->
     (forall m, m < n -> quote_at q (String c s) m -> after_backslash (String c s) m) ->
     grammar_token (String q (String c s)) = 2 + n) /\
  (forall n, quote_at q (String c s) n -> (forall m, quote_at q (String c s) m -> after_backslash (String c s) m) ->
     (forall m, n < m -> ~ quote_at q (String c s) m) ->
     grammar_token (String q (String c s)) = 2 + n) /\
  ((forall n, ~ quote_at q (String c s) n) -> grammar_token (String q (String c s)) = 0) /\
  (q <> slash -> rule_token (String q (String c s)) = grammar_token (String q (String c s))).
Proof.
  intros q c s Hq Hc.
  assert (Hb : q <> backslash) by (intros ->; repeat destruct Hq as [Hq|Hq]; try discriminate; contradiction).
  assert (E : grammar_token (String q (String c s)) = match quoted_rest q (String c s) with Some n => 1 + n | None => 0 end).
  { assert (Eq : grammar_token (String q (String c s)) = quoted q (String q (String c s))).
    { destruct Hq as [<-|[<-|[<-|[]]]]; reflexivity. }
    rewrite Eq. unfold quoted. apply Ascii.eqb_neq in Hc. now rewrite Ascii.eqb_refl, Hc. }
  assert (E' : q <> slash -> rule_token (String q (String c s)) = match quoted_rest q (String c s) with Some n => 1 + n | None => 0 end).
  { intros Hs. assert (Eq : rule_token (String q (String c s)) = quoted q (String q (String c s))).
    { destruct Hq as [<-|[<-|[<-|[]]]]; [| |congruence]; reflexivity. }
    rewrite Eq. unfold quoted. apply Ascii.eqb_neq in Hc. now rewrite Ascii.eqb_refl, Hc. }
  repeat split.
  - intros n H1 H2 H3. rewrite E, (first_free_quote q _ n Hb H1 H2 H3). reflexivity.
  - intros n H1 H2 H3. rewrite E, (last_quote q _ n Hb H2 H1 H3). reflexivity.
  - intros H. rewrite E, (no_quote_none q _ H). reflexivity.
  - intros Hs. rewrite E. now apply E'.
Qed.
Print Assumptions C79_quoted_text_ends.

Example C79_quoted_example :
  findall rule_token "name('it\'s me', 'x')" = ["name"; "("; "'it\'s me'"; ","; "'x'"; ")"] /\
  findall rule_token "path('c:\')" = ["path"; "("; "'c:\'"; ")"].
Proof. split; reflexivity. Qed.

(** A text that ends with a backslash swallows what follows up to a later quote. *)
Theorem C79_final_backslash_refuted :
  findall rule_token "path('c:\', 'd')" = ["path"; "("; "'c:\', '"; "d"; ")"].
Proof. reflexivity. Qed.
Print Assumptions C79_final_backslash_refuted.

(** [\w], among the characters below 256: letters, digits, other characters that
    stand for numbers, and the underscore *)
Theorem C79_word_characters : forall c, word_char c = true <->
  let n := nat_of_ascii c in
  (48 <= n <= 57 \/ 65 <= n <= 90 \/ n = 95 \/ 97 <= n <= 122 \/ n = 170 \/ n = 178 \/ n = 179 \/ n = 181 \/ n = 185 \/ n = 186 \/
   188 <= n <= 190 \/ 192 <= n <= 214 \/ 216 <= n <= 246 \/ 248 <= n <= 255).
Proof.
  intros c. cbv zeta. unfold word_char. cbv zeta. cbn [existsb].
  pose proof (nat_ascii_bounded c) as Hc. generalize dependent (nat_of_ascii c). intros n Hn.
  rewrite !orb_true_iff, !andb_true_iff, !negb_true_iff, !Nat.leb_le, !Nat.eqb_eq, !Nat.eqb_neq.
  split; [intros H|intros H]; repeat match goal with H : _ \/ _ |- _ => destruct H end; try discriminate; lia.
Qed.
Print Assumptions C79_word_characters.

(** ** what is no pattern *)

(** [*], [+] and [?] follow what they repeat.  A question mark after one of them
    makes it lazy, and is not followed by another one; a star follows none of
    them.  (A plus after one of them makes it possessive since Python 3.11, which
    is not modelled.) *)
Definition quantifier (c : ascii) : Prop := In c ["*"; "+"; "?"]%char.
Lemma quantifier_is c : quantifier c -> quantifier_char c = true.
Proof. intros [<-|[<-|[<-|[]]]]; reflexivity. Qed.
Lemma no_atom n c s : quantifier c -> read_atom n (String c s) = None.
Proof. intros [<-|[<-|[<-|[]]]]; destruct n; reflexivity. Qed.
Lemma no_seq n c s : quantifier c -> read_seq n (String c s) = None.
Proof. intros H. destruct n as [|n]; [reflexivity|]. cbn [read_seq]. rewrite no_atom by exact H. destruct H as [<-|[<-|[<-|[]]]]; reflexivity. Qed.
Lemma ordinary_atom n a s : ~ In a special -> read_atom (S n) (String a s) = Some (RClass false [IChar a], s).
Proof.
  intros Oa. cbn [read_atom]. change backslash with "\"%char. unfold quantifier_char.
  rewrite !(special_eqb a) by (auto; unfold special; cbn; tauto). reflexivity.
Qed.
Lemma no_postfix n a s : ~ In a special -> (forall r, postfix true r s = None) -> read_seq n (String a s) = None.
Proof.
  intros Oa H. destruct n as [|n]; [reflexivity|]. destruct n as [|n].
  - cbn. rewrite !(special_eqb a) by (auto; unfold special; cbn; tauto). reflexivity.
  - pose proof (ordinary_atom n a s Oa) as Er. remember (S n) as m. cbn [read_seq stops].
    rewrite !(special_eqb a) by (auto; unfold special; cbn; tauto). cbn [orb negb]. rewrite Er. now rewrite H.
Qed.
Lemma no_alt a s : ~ In a special -> (forall r, postfix true r s = None) -> compile (String a s) = None.
Proof.
  intros Oa H. unfold compile. rewrite (special_eqb a "^") by (auto; unfold special; cbn; tauto).
  destruct (3 * String.length (String a s) + 3) as [|n]; [reflexivity|]. cbn [read_alt]. now rewrite no_postfix.
Qed.
Theorem C79_quantifiers_follow_something :
  forall c s, quantifier c ->
    compile (String c s) = None /\
    compile (String "^" (String c s)) = None /\
    compile (String "$" (String c s)) = None /\
    compile (String "|" (String c s)) = None /\
    ((c <> "?")%char -> compile (String "(" (String c s)) = None) /\
    forall a q, ~ In a special -> quantifier q ->
      (c = "*"%char -> compile (String a (String q (String c s))) = None) /\
      compile (String a (String q (String "?" (String c s)))) = None.
Proof.
  intros c s Hc. pose proof (quantifier_is c Hc) as Hc'.
  assert (Ha : forall n, read_alt n (String c s) = None) by (intros [|n]; [reflexivity|]; cbn [read_alt]; now rewrite no_seq).
  split; [|split; [|split; [|split; [|split]]]].
  - unfold compile. assert (Ascii.eqb c "^" = false) as -> by (destruct Hc as [<-|[<-|[<-|[]]]]; reflexivity). now rewrite Ha.
  - unfold compile. change (Ascii.eqb "^" "^") with true. cbn iota. now rewrite Ha.
  - unfold compile. change (Ascii.eqb "$" "^") with false. cbn iota.
    destruct (3 * String.length (String "$" (String c s)) + 3) as [|[|[|n]]]; try reflexivity.
    cbn [read_alt]. remember (S n) as m. cbn [read_seq]. subst m. cbn [read_atom stops]. cbn -[quantifier_char]. now rewrite Hc'.
  - unfold compile. change (Ascii.eqb "|" "^") with false. cbn iota.
    destruct (3 * String.length (String "|" (String c s)) + 3) as [|[|n]] eqn:En; try reflexivity.
    cbn [read_alt]. cbn [read_seq]. cbn [stops]. change (Ascii.eqb "|" "|") with true. cbn [orb]. rewrite ?Ha; now rewrite ?no_seq.
  - intros N. unfold compile. change (Ascii.eqb "(" "^") with false. cbn iota.
    destruct (3 * String.length (String "(" (String c s)) + 3) as [|[|[|n]]] eqn:En; try reflexivity.
    cbn [read_alt read_seq stops]. change (Ascii.eqb "(" "|" || Ascii.eqb "(" ")") with false. cbn iota.
    cbn [read_atom]. change (Ascii.eqb "(" "(") with true. cbn iota.
    assert (Hi : match s with String e s'' => if Ascii.eqb c "?" && Ascii.eqb e ":" then s'' else String c s | EmptyString => String c s end = String c s).
    { apply Ascii.eqb_neq in N. rewrite N. now destruct s. }
    destruct s as [|e s'].
    + now rewrite Ha.
    + rewrite Hi. now rewrite Ha.
  - intros a q Oa Hq. apply quantifier_is in Hq. split.
    + intros ->. apply no_alt; [exact Oa|]. intros r. cbn [postfix]. now rewrite Hq.
    + apply no_alt; [exact Oa|]. intros r. cbn [postfix]. rewrite Hq, Hc'. reflexivity.
Qed.
Print Assumptions C79_quantifiers_follow_something.
Example C79_no_pattern_example : quantifier "+"%char /\ ~ In "a"%char special /\ compile "a+" <> None /\ compile "a+?" <> None /\ compile "*a" = None /\
  compile "a+*" = None /\ compile "(?:a)" <> None /\ compile "(a+)+" <> None.
Proof. split; [cbn; tauto|]. split; [intros H; cbn in H; intuition discriminate|]. repeat split; vm_compute; congruence. Qed.

(** ** patterns in grammar rules *)

(** A pattern in a grammar rule reads a prefix of the rest of the sentence that
    it describes; a pattern that cannot be compiled raises an error. *)
Theorem C79_patterns_in_grammar_rules :
  re_ok py_match /\
  forall p s, match compile p with
    | None => py_match p s = Exn (Raise "re.error")
    | Some r => (exists n, py_match p s = Ok (Some (take n s)) /\ n <= String.length s /\ describes r (take n s) (drop n s)) \/
                (py_match p s = Ok None /\ forall u rest, s = append u rest -> ~ describes r u rest)
    end.
Proof.
  split; [exact py_match_prefix|]. intros p s. unfold py_match. destruct (compile p) as [r|]; [|reflexivity].
  unfold re_match. destruct (matches r s) as [|n l] eqn:E.
  - right. split; [reflexivity|]. intros u rest -> H. apply match_complete in H. rewrite E in H. contradiction.
  - left. exists n. split; [reflexivity|]. apply matches_exactly. rewrite E. now left.
Qed.
Print Assumptions C79_patterns_in_grammar_rules.

Example C79_patterns_example :
  py_match "\w+" "John sleeps" = Ok (Some "John") /\ py_match "[0-9]+" "John" = Ok None /\
  py_match "(a" "John" = Exn (Raise "re.error").
Proof. repeat split; reflexivity. Qed.
