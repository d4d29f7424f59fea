(** * Property C105: which texts are grammar rules *)

From Coq Require Import ZArith String Ascii List Bool Arith Lia.
From Verif Require Import Py Effects Grammar InferenceModule Earley Lexer LexerProofs GrammarParser PropGrammarParser.
Import ListNotations.
Local Open Scope string_scope.
Local Open Scope list_scope.

(** ** the notation *)

(** variables with commas between them; one more comma may follow the last *)
Inductive variables_written : list string -> list string -> Prop :=
| vw_none : variables_written [] []
| vw_one v : is_variable v = true -> variables_written [v] [v]
| vw_more v ts vs : is_variable v = true -> variables_written ts vs -> variables_written (v :: "," :: ts) (v :: vs).

(** a name and variables in parentheses *)
Inductive atom_written : list string -> string -> list string -> Prop :=
| aw p ts vs : is_word p -> variables_written ts vs -> atom_written (p :: "(" :: ts ++ [")"]) p vs.

(** the text [raw] between two [q] stands for [w]: a backslash before a [q] is
    left out *)
Inductive unescaped (q : ascii) : string -> string -> Prop :=
| un_nil : unescaped q "" ""
| un_quote raw w : unescaped q raw w -> unescaped q (String backslash (String q raw)) (String q w)
| un_char c raw w : (c = backslash -> starts q raw = false) -> unescaped q raw w -> unescaped q (String c raw) (String c w).
Definition token_written (q : ascii) (t w : string) : Prop :=
  exists raw, t = String q (append raw (String q "")) /\ raw <> "" /\ unescaped q raw w.

(** one part of the right-hand side; only in a grammar for writing can an atom
    be optional *)
Inductive part_written (write : bool) : list string -> constituent -> Prop :=
| pw_atom ts p vs : atom_written ts p vs -> part_written write ts (mkCons p vs PRelation false false)
| pw_optional_atom ts p vs : write = true -> atom_written ts p vs -> part_written write (ts ++ ["?"]) (mkCons p vs PRelation true false)
| pw_word q t w : q = quote1 \/ q = quote2 -> token_written q t w -> part_written write [t] (mkCons w [] PWord false false)
| pw_optional_word q t w : q = quote1 \/ q = quote2 -> token_written q t w -> part_written write [t; "?"] (mkCons w [] PWord true false)
| pw_regexp t r : token_written slash t r -> part_written write [t] (mkCons r [] PRegExp false false).

(** the right-hand side: parts with nothing, [+] or [~] between them; a [+] or
    a [~] may follow the last part *)
Inductive parts_written (write : bool) : list string -> list constituent -> Prop :=
| ps_none : parts_written write [] []
| ps_last ts k : part_written write ts k -> parts_written write ts [k]
| ps_space ts k ts' ks : part_written write ts k -> ts' <> [] -> parts_written write ts' ks ->
    parts_written write (ts ++ ts') (k :: mkCons " " [] PWord false true :: ks)
| ps_plus ts k ts' ks : part_written write ts k -> parts_written write ts' ks ->
    parts_written write (ts ++ "+" :: ts') (k :: ks)
| ps_tilde ts k ts' ks : part_written write ts k -> parts_written write ts' ks ->
    parts_written write (ts ++ "~" :: ts') (k :: mkCons " " [] PWord true true :: ks).

Inductive rule_written (write : bool) : list string -> constituent -> list constituent -> Prop :=
| rw p vs ts ts' ks : atom_written ts p vs -> parts_written write ts' ks ->
    rule_written write (ts ++ "->" :: ts') (mkCons p vs PRelation false false) ks.

(** ** the tokens of a text *)
Lemma quoted_rest_take q : forall n s k, String.length s <= n -> quoted_rest q s = Some k -> exists raw, take k s = append raw (String q "").
Proof.
  induction n as [|n IH]; intros s k Hn H; destruct s as [|c s]; try discriminate; [simpl in Hn; lia|].
  cbn [quoted_rest] in H. cbn [String.length] in Hn. destruct (Ascii.eqb_spec c q) as [->|Hc].
  - injection H as <-. exists "". cbn [take]. destruct s; reflexivity.
  - assert (Hs : option_map S (quoted_rest q s) = Some k -> exists raw, take k (String c s) = append raw (String q "")).
    { intros E. destruct (quoted_rest q s) as [m|] eqn:E1; [|discriminate]. injection E as <-.
      destruct (IH s m ltac:(lia) E1) as [raw Hr]. exists (String c raw). cbn [take append]. now rewrite Hr. }
    destruct (Ascii.eqb c backslash); [|exact (Hs H)].
    destruct s as [|d s]; [discriminate|]. destruct (Ascii.eqb_spec d q) as [->|Hd]; [|exact (Hs H)].
    destruct (quoted_rest q s) as [m|] eqn:E1; injection H as <-.
    + cbn [String.length] in Hn. destruct (IH s m ltac:(lia) E1) as [raw Hr]. exists (String c (String q raw)). cbn [take append]. now rewrite Hr.
    + exists (String c ""). cbn [take append]. destruct s; reflexivity.
Qed.
Lemma quoted_take q s k : quoted q s = S k -> exists raw, raw <> "" /\ take (S k) s = String q (append raw (String q "")).
Proof.
  unfold quoted. destruct s as [|c [|d s]]; try discriminate. destruct (Ascii.eqb_spec c q) as [->|]; [|discriminate].
  destruct (Ascii.eqb_spec d q) as [->|Hd]; [discriminate|]. cbn [andb negb].
  destruct (quoted_rest q (String d s)) as [n|] eqn:E; [|discriminate]. intros H. injection H as <-.
  destruct (quoted_rest_take q _ _ n (le_n _) E) as [raw Hr]. exists raw. split.
  - intros ->. cbn [append] in Hr. destruct n; [discriminate|]. cbn [take] in Hr. injection Hr as E1 _. congruence.
  - change (take (S n) (String q (String d s))) with (String q (take n (String d s))). now rewrite Hr.
Qed.

(** a token that starts with a quote is a quoted text *)
Definition well_formed (t : string) : Prop :=
  forall q, In q [quote1; quote2; slash] -> first_char t = q -> exists raw, raw <> "" /\ t = String q (append raw (String q "")).
Lemma grammar_token_formed s k : grammar_token s = S k -> well_formed (take (S k) s).
Proof.
  destruct s as [|c s]; [discriminate|]. intros H q Hq Hf. cbn [take first_char] in Hf. subst c.
  cbn [In] in Hq. destruct Hq as [<-|[<-|[<-|[]]]]; apply quoted_take; exact H.
Qed.
Lemma find_formed : forall s skip, Forall well_formed (find_from grammar_token skip s).
Proof.
  induction s as [|c s IH]; intros skip; [constructor|]. cbn [find_from]. destruct skip as [|skip]; [|apply IH].
  destruct (grammar_token (String c s)) as [|k] eqn:E; [apply IH|]. constructor; [now apply grammar_token_formed|apply IH].
Qed.
Lemma findall_formed s : Forall well_formed (findall grammar_token s).
Proof. apply find_formed. Qed.

Lemma inside_quotes q raw : inside (String q (append raw (String q ""))) = raw.
Proof.
  unfold inside. cbn [String.length drop]. rewrite str_app_length. cbn [String.length].
  replace (S (String.length raw + 1) - 2) with (String.length raw) by lia. apply take_app.
Qed.
Lemma unescape_unescaped q : q <> backslash -> forall n raw, String.length raw <= n -> unescaped q raw (unescape q raw).
Proof.
  intros Hq. induction n as [|n IH]; intros raw Hn; destruct raw as [|c raw]; try constructor; [simpl in Hn; lia|].
  cbn [String.length] in Hn. cbn [unescape]. destruct (Ascii.eqb_spec c backslash) as [->|Hc].
  - destruct raw as [|d raw]; [constructor; [reflexivity|constructor]|]. cbn [String.length] in Hn.
    destruct (Ascii.eqb_spec d q) as [->|Hd]; [constructor; apply IH; lia|].
    constructor; [|apply IH; cbn [String.length]; lia]. intros _. cbn [starts]. apply Ascii.eqb_neq. congruence.
  - constructor; [congruence|apply IH; lia].
Qed.
Lemma unescaped_unescape q raw w : q <> backslash -> unescaped q raw w -> unescape q raw = w.
Proof.
  intros Hq. induction 1 as [|raw w _ IH|c raw w Hc H IH]; [reflexivity| |].
  - cbn [unescape]. change (Ascii.eqb backslash backslash) with true. cbn match. now rewrite Ascii.eqb_refl, IH.
  - cbn [unescape]. destruct (Ascii.eqb_spec c backslash) as [->|Hb]; [|now rewrite IH].
    specialize (Hc eq_refl). destruct raw as [|d raw]; [inversion H; reflexivity|]. cbn [starts] in Hc.
    rewrite Ascii.eqb_sym in Hc. rewrite Hc. now rewrite IH.
Qed.
Lemma unescape_nonempty q raw : raw <> "" -> unescape q raw <> "".
Proof.
  destruct raw as [|c raw]; [congruence|]. intros _. cbn [unescape].
  destruct (Ascii.eqb c backslash); [|discriminate]. destruct raw as [|d raw]; [discriminate|]. destruct (Ascii.eqb d q); discriminate.
Qed.
Definition quotes : list ascii := [quote1; quote2; slash].
Lemma quotes_no_backslash q : In q quotes -> q <> backslash.
Proof. cbn. intros [<-|[<-|[<-|[]]]]; discriminate. Qed.
(** the model's reading of a token is the one above *)
Lemma token_read q t : In q quotes -> well_formed t -> first_char t = q -> token_written q t (unescape q (inside t)) /\ unescape q (inside t) <> "".
Proof.
  intros Hq Hw Hf. destruct (Hw q Hq Hf) as (raw & Hn & ->). rewrite inside_quotes. split; [|now apply unescape_nonempty].
  exists raw. split; [reflexivity|]. split; [exact Hn|]. apply (unescape_unescaped q (quotes_no_backslash q Hq) _ _ (le_n _)).
Qed.
Lemma token_inv q t w : In q quotes -> token_written q t w -> first_char t = q /\ unescape q (inside t) = w /\ w <> "".
Proof.
  intros Hq (raw & -> & Hn & Hu). split; [reflexivity|]. rewrite inside_quotes.
  apply unescaped_unescape in Hu; [|now apply quotes_no_backslash]. split; [exact Hu|]. rewrite <- Hu. now apply unescape_nonempty.
Qed.

(** ** what is read is written *)
Lemma parse_args_written : forall n ts, length ts <= n -> exists used, ts = used ++ snd (parse_args ts) /\ variables_written used (fst (parse_args ts)).
Proof.
  induction n as [|n IH]; intros ts Hn; destruct ts as [|t ts]; try (exists []; split; [reflexivity|constructor]); [simpl in Hn; lia|].
  cbn [length] in Hn. cbn [parse_args]. destruct (is_variable t) eqn:Et; [|exists []; split; [reflexivity|constructor]].
  destruct ts as [|c ts]; [exists [t]; split; [reflexivity|now constructor]|].
  destruct (String.eqb_spec c ",") as [->|Hc]; [|exists [t]; split; [reflexivity|now constructor]].
  cbn [length] in Hn. destruct (IH ts ltac:(lia)) as (used & E & Hw). destruct (parse_args ts) as [vs rest]. cbn [fst snd] in *.
  exists (t :: "," :: used). split; [now rewrite E|now constructor].
Qed.
Lemma identifier_word t : is_identifier t = true -> is_word t.
Proof. unfold is_identifier. rewrite andb_true_iff, negb_true_iff, String.eqb_neq. intros [H1 H2]. now split. Qed.
Lemma atom_read ts k rest : parse_g_atom ts = Some (k, rest) ->
  exists used p vs, ts = used ++ rest /\ atom_written used p vs /\ k = mkCons p vs PRelation false false.
Proof.
  unfold parse_g_atom. destruct ts as [|p [|o ts]]; try discriminate.
  destruct (is_identifier p) eqn:Ep; [|discriminate]. destruct (String.eqb_spec o "(") as [->|]; [|discriminate]. cbn [andb].
  destruct (parse_args_written _ ts (le_n _)) as (used & E & Hw). destruct (parse_args ts) as [vs [|c rest']]; cbn [fst snd] in *; [discriminate|].
  destruct (String.eqb_spec c ")") as [->|]; [|discriminate]. intros H. injection H as <- <-.
  exists (p :: "(" :: used ++ [")"]), p, vs. split; [|split; [constructor; [now apply identifier_word|exact Hw]|reflexivity]].
  rewrite E. cbn [app]. now rewrite <- app_assoc.
Qed.
Lemma mark_read ts b rest : parse_optional ts = (b, rest) -> ts = mark_tokens b ++ rest.
Proof.
  unfold parse_optional. destruct ts as [|t ts]; [intros H; injection H as <- <-; reflexivity|].
  destruct (String.eqb_spec t "?") as [->|]; intros H; injection H as <- <-; reflexivity.
Qed.
Lemma part_read write ts k rest : Forall well_formed ts -> parse_item write ts = Some (k, rest) ->
  exists used, ts = used ++ rest /\ part_written write used k.
Proof.
  intros HF. unfold parse_item. destruct (parse_g_atom ts) as [[a rest1]|] eqn:Ea.
  - destruct (atom_read _ _ _ Ea) as (used & p & vs & E & Hw & ->). destruct write.
    + destruct (parse_optional rest1) as [b rest2] eqn:Eo. apply mark_read in Eo. destruct b; intros H; injection H as <- <-.
      * exists (used ++ ["?"]). split; [|cbn [k_pred k_args k_type k_separator]; now constructor].
        rewrite E, Eo. now rewrite <- app_assoc.
      * exists used. split; [exact E|now constructor].
    + intros H. injection H as <- <-. exists used. split; [exact E|now constructor].
  - intros H. destruct ts as [|t ts]; [discriminate|]. inversion HF as [|? ? Ht HF']; subst. cbn [parse_g_regexp parse_g_string] in H.
    destruct (Ascii.eqb_spec (first_char t) slash) as [E|N].
    + destruct (token_read slash t ltac:(cbn; auto) Ht E) as [Hw Hn]. apply String.eqb_neq in Hn. rewrite Hn in H. injection H as <- <-.
      exists [t]. split; [reflexivity|now constructor].
    + assert (Hs : exists q, (q = quote1 \/ q = quote2) /\ first_char t = q /\
        (let s := unescape q (inside t) in if String.eqb s "" then None
         else match parse_optional ts with (o, rest') => Some (mkCons s [] PWord o false, rest') end) = Some (k, rest)).
      { destruct (Ascii.eqb_spec (first_char t) quote1) as [E1|N1]; [exists quote1; auto|].
        destruct (Ascii.eqb_spec (first_char t) quote2) as [E2|N2]; [exists quote2; auto|discriminate H]. }
      destruct Hs as (q & Hq & E & H'). cbv zeta in H'.
      destruct (token_read q t ltac:(destruct Hq as [->| ->]; cbn; auto) Ht E) as [Hw Hn]. apply String.eqb_neq in Hn. rewrite Hn in H'.
      destruct (parse_optional ts) as [o rest'] eqn:Eo. apply mark_read in Eo. injection H' as <- <-.
      exists (t :: mark_tokens o). split; [now rewrite Eo|]. destruct o; cbn [mark_tokens]; econstructor; eassumption.
Qed.

Lemma formed_rest (a b : list string) : Forall well_formed (a ++ b) -> Forall well_formed b.
Proof. intros H. now apply Forall_app in H. Qed.
Lemma part_nonempty write ts k : part_written write ts k -> ts <> [].
Proof. destruct 1 as [ts p vs H|ts p vs _ H|q t w _ _|q t w _ _|t r _]; try discriminate; destruct H; discriminate. Qed.

Lemma parts_read write : forall n ts ks rest, Forall well_formed ts -> parse_consequents n write ts = Ok (ks, rest) -> rest = [] -> parts_written write ts ks.
Proof.
  induction n as [|n IH]; intros ts ks rest HF H Hr; [discriminate|]. cbn [parse_consequents] in H.
  destruct (parse_item write ts) as [[k rest1]|] eqn:Ei; [|injection H as <- <-; subst; constructor].
  destruct (part_read _ _ _ _ HF Ei) as (used & -> & Hw). apply formed_rest in HF.
  destruct rest1 as [|t rest2]; [injection H as <- <-; rewrite app_nil_r; now constructor|].
  destruct (String.eqb_spec t "+") as [->|N1]; [|destruct (String.eqb_spec t "~") as [->|N2]].
  - destruct (parse_consequents n write rest2) as [[ks' rest']| |] eqn:E; try discriminate. injection H as <- <-.
    constructor; [exact Hw|]. inversion HF; subst. now apply (IH rest2 ks' []).
  - destruct (parse_consequents n write rest2) as [[ks' rest']| |] eqn:E; try discriminate. injection H as <- <-.
    constructor; [exact Hw|]. inversion HF; subst. now apply (IH rest2 ks' []).
  - destruct (parse_consequents n write (t :: rest2)) as [[ks' rest']| |] eqn:E; try discriminate. injection H as <- <-.
    constructor; [exact Hw|discriminate|]. subst. now apply (IH (t :: rest2) ks' []).
Qed.

(** ** what is written is read *)
Lemma variable_not_paren v : is_variable v = true -> v <> ")" /\ v <> ",".
Proof. intros H. split; intros ->; discriminate H. Qed.
Lemma variables_parsed ts vs rest : variables_written ts vs -> parse_args (ts ++ ")" :: rest) = (vs, ")" :: rest).
Proof.
  induction 1 as [|v Hv|v ts vs Hv _ IH]; [reflexivity| |].
  - cbn [app parse_args]. rewrite Hv. reflexivity.
  - cbn [app parse_args]. rewrite Hv. change (String.eqb "," ",") with true. cbn match. now rewrite IH.
Qed.
Lemma atom_parsed ts p vs rest : atom_written ts p vs -> parse_g_atom (ts ++ rest) = Some (mkCons p vs PRelation false false, rest).
Proof.
  intros [p' ts' vs' Hp Hv]. cbn [app parse_g_atom]. rewrite word_identifier by exact Hp. change (String.eqb "(" "(") with true. cbn [andb].
  rewrite <- app_assoc. cbn [app]. rewrite (variables_parsed _ _ _ Hv). reflexivity.
Qed.
Lemma token_no_atom q t w rest : In q quotes -> token_written q t w -> parse_g_atom (t :: rest) = None.
Proof.
  intros Hq (raw & -> & _). unfold parse_g_atom. destruct rest as [|o rest]; [reflexivity|].
  assert (E : is_identifier (String q (append raw (String q ""))) = false).
  { unfold is_identifier. cbn [all_word]. cbn in Hq. destruct Hq as [<-|[<-|[<-|[]]]]; reflexivity. }
  now rewrite E.
Qed.
Lemma part_parsed write ts k rest : part_written write ts k -> no_mark rest -> parse_item write (ts ++ rest) = Some (k, rest).
Proof.
  intros H Hr. unfold parse_item.
  assert (Hword : forall q t w o, q = quote1 \/ q = quote2 -> token_written q t w ->
    parse_item write ((t :: mark_tokens o) ++ rest) = Some (mkCons w [] PWord o false, rest)).
  { intros q t w o Hq Hw. assert (Hin : In q quotes) by (destruct Hq as [->| ->]; cbn; auto).
    unfold parse_item. cbn [app]. rewrite (token_no_atom q t w _ Hin Hw). destruct (token_inv q t w Hin Hw) as (E1 & E2 & E3).
    apply String.eqb_neq in E3. cbn [parse_g_regexp parse_g_string]. rewrite E1.
    destruct Hq as [->| ->]; cbn [Ascii.eqb]; rewrite E2; cbn; rewrite E3, parse_mark by exact Hr; reflexivity. }
  destruct H as [ts p vs H|ts p vs -> H|q t w Hq H|q t w Hq H|t r H].
  - rewrite (atom_parsed _ _ _ _ H). destruct write; [|reflexivity]. now rewrite parse_no_mark.
  - rewrite <- app_assoc, (atom_parsed _ _ _ _ H). reflexivity.
  - exact (Hword q t w false Hq H).
  - exact (Hword q t w true Hq H).
  - assert (Hin : In slash quotes) by (cbn; auto). cbn [app]. rewrite (token_no_atom slash t r _ Hin H).
    destruct (token_inv slash t r Hin H) as (E1 & E2 & E3). apply String.eqb_neq in E3. cbn [parse_g_regexp]. rewrite E1.
    rewrite Ascii.eqb_refl, E2, E3. reflexivity.
Qed.
Lemma part_head write ts k : part_written write ts k -> exists t ts', ts = t :: ts' /\ t <> "+" /\ t <> "~" /\ t <> "?".
Proof.
  assert (Hatom : forall ts p vs, atom_written ts p vs -> exists ts', ts = p :: ts' /\ p <> "+" /\ p <> "~" /\ p <> "?").
  { intros ts0 p vs [p' ts1 vs' [_ Hp] _]. eexists. split; [reflexivity|]. repeat split; intros ->; discriminate Hp. }
  assert (Htok : forall q t w, In q quotes -> token_written q t w -> t <> "+" /\ t <> "~" /\ t <> "?").
  { intros q t w Hq (raw & -> & _). cbn in Hq. destruct Hq as [<-|[<-|[<-|[]]]]; repeat split; discriminate. }
  intros [ts' p vs H|ts' p vs _ H|q t w Hq H|q t w Hq H|t r H].
  - destruct (Hatom _ _ _ H) as (ts1 & -> & N). eauto.
  - destruct (Hatom _ _ _ H) as (ts1 & -> & N). cbn [app]. eauto.
  - exists t, []. split; [reflexivity|]. apply (Htok q t w); [destruct Hq as [->| ->]; cbn; auto|exact H].
  - exists t, ["?"]. split; [reflexivity|]. apply (Htok q t w); [destruct Hq as [->| ->]; cbn; auto|exact H].
  - exists t, []. split; [reflexivity|]. apply (Htok slash t r); [cbn; auto|exact H].
Qed.
Lemma parts_head write ts ks : parts_written write ts ks -> ts <> [] -> exists t ts', ts = t :: ts' /\ t <> "+" /\ t <> "~" /\ t <> "?".
Proof.
  intros H Hn. destruct H as [|ts k H|ts k ts' ks H _ _|ts k ts' ks H _|ts k ts' ks H _]; [congruence| | | |];
    destruct (part_head _ _ _ H) as (t & ts1 & -> & N); cbn [app]; eauto.
Qed.
Lemma parts_parsed write ts ks : parts_written write ts ks -> forall n, length ts < n -> parse_consequents n write ts = Ok (ks, []).
Proof.
  induction 1 as [|ts k H|ts k ts' ks H Hn H' IH|ts k ts' ks H H' IH|ts k ts' ks H H' IH]; intros n Hlt;
    (destruct n as [|n]; [lia|]); cbn [parse_consequents].
  - reflexivity.
  - pose proof (part_parsed write ts k [] H ltac:(discriminate)) as E. rewrite app_nil_r in E. now rewrite E.
  - destruct (parts_head _ _ _ H' Hn) as (t & ts1 & Et & N1 & N2 & N3).
    rewrite (part_parsed write ts k ts' H) by (unfold no_mark; rewrite Et; exact N3). subst ts'.
    apply String.eqb_neq in N1, N2. rewrite N1, N2. rewrite app_length in Hlt.
    destruct (part_head _ _ _ H) as (t0 & ts0 & -> & _). cbn [length] in Hlt. rewrite IH by (cbn [length]; lia). reflexivity.
  - rewrite (part_parsed write ts k _ H) by discriminate. rewrite app_length in Hlt. cbn [length] in Hlt.
    change (String.eqb "+" "+") with true. cbn match. rewrite IH by lia. reflexivity.
  - rewrite (part_parsed write ts k _ H) by discriminate. rewrite app_length in Hlt. cbn [length] in Hlt.
    change (String.eqb "~" "+") with false. change (String.eqb "~" "~") with true. cbn match. rewrite IH by lia. reflexivity.
Qed.

(** ** C105 *)

(** A text is read as a rule exactly when its tokens are those of a rule in
    the notation, and it is read as this rule. *)
Theorem C105_texts_read_as_rules :
  forall write text a ks,
    parse_syntax write text = Ok (a, ks) <-> rule_written write (findall grammar_token text) a ks.
Proof.
  intros write text a ks. split.
  - unfold parse_syntax. pose proof (findall_formed text) as HF. destruct (parse_g_atom (findall grammar_token text)) as [[k [|arrow rest]]|] eqn:Ea; try discriminate.
    destruct (atom_read _ _ _ Ea) as (used & p & vs & E & Hw & ->). rewrite E in *. apply formed_rest in HF. inversion HF as [|? ? _ HF']; subst.
    destruct (String.eqb_spec arrow "->") as [->|]; [|discriminate].
    destruct (parse_consequents (S (length rest)) write rest) as [[ks' rest']| |] eqn:Ec; try discriminate. cbn [obind fst snd].
    destruct rest' as [|]; [|discriminate]. intros H. injection H as <- <-. constructor; [exact Hw|].
    now apply (parts_read write _ rest ks' [] HF' Ec).
  - intros H. unfold parse_syntax. inversion H as [p vs ts ts' ks' Ha Hp E]; subst. rewrite (atom_parsed _ _ _ _ Ha).
    change (String.eqb "->" "->") with true. cbn match. rewrite (parts_parsed _ _ _ Hp) by auto. reflexivity.
Qed.
Print Assumptions C105_texts_read_as_rules.

(** Any other text is refused. *)
Lemma consequents_end write : forall n ts, Forall well_formed ts -> length ts < n -> exists r, parse_consequents n write ts = Ok r.
Proof.
  induction n as [|n IH]; intros ts HF Hn; [lia|]. cbn [parse_consequents].
  destruct (parse_item write ts) as [[k rest]|] eqn:Ei; [|eauto]. destruct (part_read _ _ _ _ HF Ei) as (used & -> & Hw).
  apply formed_rest in HF. pose proof (part_nonempty _ _ _ Hw). destruct used as [|u used]; [congruence|]. cbn [app length] in Hn. rewrite app_length in Hn.
  destruct rest as [|t rest]; [eauto|]. cbn [length] in Hn. inversion HF as [|? ? Ht HF']; subst.
  destruct (IH rest HF' ltac:(lia)) as [r1 E1]. destruct (IH (t :: rest) HF ltac:(cbn [length]; lia)) as [r2 E2].
  destruct (String.eqb t "+"); [rewrite E1; cbn [obind]; eauto|]. destruct (String.eqb t "~"); [rewrite E1; cbn [obind]; eauto|].
  rewrite E2. cbn [obind]. eauto.
Qed.
Theorem C105_other_texts_are_refused :
  forall write text,
    (exists a ks, rule_written write (findall grammar_token text) a ks) \/
    (exists message, parse_syntax write text = Exn (Raise message) /\
       In message ["Could not parse antecedent"; "Missing -> operator"; "Could not complete parsing the consequents"] /\
       (message = "Could not parse antecedent" <-> ~ exists used p vs rest, findall grammar_token text = used ++ rest /\ atom_written used p vs) /\
       (message = "Missing -> operator" <-> exists used p vs rest, findall grammar_token text = used ++ rest /\ atom_written used p vs /\ hd "" rest <> "->")).
Proof.
  intros write text. destruct (parse_syntax write text) as [[a ks]|e|] eqn:E.
  { left. exists a, ks. now apply C105_texts_read_as_rules. }
  - right. unfold parse_syntax in E. pose proof (findall_formed text) as HF.
    assert (Huniq : forall used p vs rest k r, parse_g_atom (used ++ rest) = Some (k, r) -> atom_written used p vs -> r = rest).
    { intros used p vs rest k r H Hw. rewrite (atom_parsed _ _ _ rest Hw) in H. congruence. }
    destruct (parse_g_atom (findall grammar_token text)) as [[k rest]|] eqn:Ea.
    + destruct (atom_read _ _ _ Ea) as (used & p & vs & Et & Hw & ->).
      assert (Hsome : exists used p vs rest, findall grammar_token text = used ++ rest /\ atom_written used p vs) by eauto 6.
      destruct (String.eqb_spec (hd "" rest) "->") as [Eh|Nh].
      * destruct rest as [|arrow rest]; [discriminate Eh|]. cbn [hd] in Eh. subst arrow. change (String.eqb "->" "->") with true in E. cbn match in E.
        rewrite Et in HF. apply formed_rest in HF. inversion HF as [|? ? _ HF']; subst.
        destruct (consequents_end write (S (length rest)) rest HF' ltac:(lia)) as [[ks r] Ec]. rewrite Ec in E. cbn [obind fst snd] in E.
        destruct r; [discriminate|]. injection E as <-. eexists. split; [reflexivity|]. split; [cbn; auto|]. split; [split; [discriminate|tauto]|].
        split; [discriminate|]. intros (used' & p' & vs' & rest' & Et' & Hw' & Nh). rewrite Et' in Ea.
        apply (Huniq _ _ _ _ _ _ Ea) in Hw'. subst rest'. now destruct Nh.
      * assert (E' : e = Raise "Missing -> operator").
        { destruct rest as [|arrow rest]; [congruence|]. cbn [hd] in Nh. apply String.eqb_neq in Nh. rewrite Nh in E. congruence. }
        subst e. eexists. split; [reflexivity|]. split; [cbn; auto|]. split; [split; [discriminate|tauto]|]. split; [|reflexivity]. intros _. eauto 8.
    + injection E as <-. eexists. split; [reflexivity|]. split; [cbn; auto|].
      assert (Hno : forall used p vs rest, findall grammar_token text = used ++ rest -> atom_written used p vs -> False).
      { intros used p vs rest Et Hw. rewrite Et, (atom_parsed _ _ _ _ Hw) in Ea. discriminate. }
      split; [split; [|reflexivity]|split; [discriminate|]].
      * intros _ (used & p & vs & rest & Et & Hw). eauto.
      * intros (used & p & vs & rest & Et & Hw & _). destruct (Hno _ _ _ _ Et Hw).
  - exfalso. unfold parse_syntax in E. pose proof (findall_formed text) as HF.
    destruct (parse_g_atom (findall grammar_token text)) as [[k [|arrow rest]]|] eqn:Ea; try discriminate.
    destruct (atom_read _ _ _ Ea) as (used & p & vs & Et & Hw & ->). rewrite Et in HF. apply formed_rest in HF. inversion HF as [|? ? _ HF']; subst.
    destruct (String.eqb arrow "->"); [|discriminate].
    destruct (consequents_end write (S (length rest)) rest HF' ltac:(lia)) as [[ks r] Ec]. rewrite Ec in E. cbn [obind fst snd] in E. destruct r; discriminate.
Qed.
Print Assumptions C105_other_texts_are_refused.

(** a rule with all kinds of parts, with a comma and a [~] too many, and texts
    that are refused *)
Example C105_example :
  (exists ks, rule_written true (findall grammar_token "s(V,) -> 'it\'s'? np(E1, E2)?~/a\/b/ +vp(V)~") (mkCons "s" ["V"] PRelation false false) ks /\
     map k_pred ks = ["it's"; " "; "np"; " "; "a/b"; "vp"; " "]) /\
  parse_syntax false "s(V) -> np(E)?" = Exn (Raise "Could not complete parsing the consequents") /\
  parse_syntax false "s[V] -> np(E)" = Exn (Raise "Could not parse antecedent") /\
  parse_syntax false "s(V) => np(E)" = Exn (Raise "Missing -> operator") /\
  parse_syntax false "s(V) -> np E)" = Exn (Raise "Could not complete parsing the consequents").
Proof.
  split; [|repeat split].
  exists [mkCons "it's" [] PWord true false; mkCons " " [] PWord false true; mkCons "np" ["E1"; "E2"] PRelation true false;
    mkCons " " [] PWord true true; mkCons "a/b" [] PRegExp false false; mkCons "vp" ["V"] PRelation false false; mkCons " " [] PWord true true].
  split; [|reflexivity]. apply C105_texts_read_as_rules. reflexivity.
Qed.
