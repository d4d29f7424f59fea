(** * Properties C73-C75 and C93: the notation of grammar rules *)

From Coq Require Import ZArith String Ascii List Bool Arith Lia.
From Verif Require Import Py Effects Grammar InferenceModule Earley Lexer LexerProofs GrammarParser.
Import ListNotations.
Local Open Scope string_scope.
Local Open Scope list_scope.

(** ** C73 *)

(** the parts of a rule, as written *)
Inductive item : Type :=
| IAtom (predicate : string) (variables : list string) (optional : bool)
| IWord (quote : ascii) (form : string) (optional : bool)
| IRegexp (expression : string).
(** between two parts: a space, [+] or [~] *)
Inductive joiner : Type := JSpace | JPlus | JTilde.
Definition body : Type := option (item * list (joiner * item)).

(** the text of a rule *)
Definition show_atom (p : string) (vars : list string) : string := append p (append "(" (append (String.concat ", " vars) ")")).
Definition show_mark (optional : bool) : string := if optional then "?" else "".
Definition show_item (i : item) : string :=
  match i with
  | IAtom p vars o => append (show_atom p vars) (show_mark o)
  | IWord q w o => append (in_quotes q w) (show_mark o)
  | IRegexp r => in_quotes slash r
  end.
Definition show_joiner (j : joiner) : string := match j with JSpace => " " | JPlus => "+" | JTilde => "~" end.
Definition show_more (l : list (joiner * item)) : string :=
  fold_right (fun ji s => append (show_joiner (fst ji)) (append (show_item (snd ji)) s)) "" l.
Definition show_body (b : body) : string := match b with None => "" | Some (i, l) => append (show_item i) (show_more l) end.
Definition show_rule (p : string) (vars : list string) (b : body) : string :=
  append (show_atom p vars) (append " -> " (show_body b)).

(** what it stands for *)
Definition item_constituent (i : item) : constituent :=
  match i with
  | IAtom p vars o => mkCons p vars PRelation o false
  | IWord _ w o => mkCons w [] PWord o false
  | IRegexp r => mkCons r [] PRegExp false false
  end.
Definition joiner_constituents (j : joiner) : list constituent :=
  match j with
  | JSpace => [mkCons " " [] PWord false true]
  | JPlus => []
  | JTilde => [mkCons " " [] PWord true true]
  end.
Definition body_constituents (b : body) : list constituent :=
  match b with
  | None => []
  | Some (i, l) => item_constituent i :: flat_map (fun ji => joiner_constituents (fst ji) ++ [item_constituent (snd ji)]) l
  end.

(** names are words, variables start with a capital, quoted text is not empty
    and does not end with a backslash; only rules for writing have optional
    atoms *)
Definition good_text (s : string) : Prop := s <> "" /\ ends_with backslash s = false.
Definition good_atom (p : string) (vars : list string) : Prop := is_word p /\ Forall (fun v => is_variable v = true) vars.
Definition good_item (write : bool) (i : item) : Prop :=
  match i with
  | IAtom p vars o => good_atom p vars /\ (o = true -> write = true)
  | IWord q w _ => (q = quote1 \/ q = quote2) /\ good_text w
  | IRegexp r => good_text r
  end.
Definition good_body (write : bool) (b : body) : Prop :=
  match b with None => True | Some (i, l) => good_item write i /\ Forall (fun ji => good_item write (snd ji)) l end.

(** *** the tokens *)
Fixpoint vars_tokens (vars : list string) : list string :=
  match vars with
  | [] => []
  | [v] => [v]
  | v :: rest => v :: "," :: vars_tokens rest
  end.
Definition atom_tokens (p : string) (vars : list string) : list string := p :: "(" :: vars_tokens vars ++ [")"].
Definition mark_tokens (o : bool) : list string := if o then ["?"] else [].
Definition item_tokens (i : item) : list string :=
  match i with
  | IAtom p vars o => atom_tokens p vars ++ mark_tokens o
  | IWord q w o => in_quotes q w :: mark_tokens o
  | IRegexp r => [in_quotes slash r]
  end.
Definition joiner_tokens (j : joiner) : list string := match j with JSpace => [] | JPlus => ["+"] | JTilde => ["~"] end.
Definition more_tokens (l : list (joiner * item)) : list string := flat_map (fun ji => joiner_tokens (fst ji) ++ item_tokens (snd ji)) l.
Definition body_tokens (b : body) : list string := match b with None => [] | Some (i, l) => item_tokens i ++ more_tokens l end.

Lemma laid_here t ts s : g_tok t -> g_follows t s -> g_laid_out ts s -> g_laid_out (t :: ts) (append t s).
Proof. intros H1 H2 H3. apply (laid_token g_tok g_follows g_junk "" t ts s); simpl; auto. Qed.
Lemma laid_gap g ts s : gap g_junk g -> g_laid_out ts s -> g_laid_out ts (append g s).
Proof.
  intros Hg H. assert (Happ : forall a b, gap g_junk a -> gap g_junk b -> gap g_junk (append a b)).
  { induction a as [|c a IH]; intros b Ha Hb; [exact Hb|]. destruct Ha as [Hc Ha]. simpl. split; [exact Hc|auto]. }
  inversion H as [g' Hg'|g' t ts' s' Hg' Ht Hf Hl]; subst.
  - constructor. auto.
  - rewrite <- str_app_assoc. constructor; auto.
Qed.
Lemma space_junk : gap g_junk " ".
Proof. split; [|exact I]. split; [reflexivity|]. simpl. intuition discriminate. Qed.
Lemma mark_tok t : In t g_marks -> g_tok t.
Proof. left. assumption. Qed.
Lemma mark_follows t s : In t g_marks -> g_follows t s.
Proof.
  intros H [_ Hw]. exfalso. simpl in H. repeat (destruct H as [<-|H]; [discriminate Hw|]). destruct H.
Qed.
Lemma laid_mark t ts s : In t g_marks -> g_laid_out ts s -> g_laid_out (t :: ts) (append t s).
Proof. intros H. apply laid_here; [now apply mark_tok|now apply mark_follows]. Qed.
Lemma variable_word v : is_variable v = true -> is_word v.
Proof.
  destruct v as [|c v]; [discriminate|]. unfold is_variable. cbv zeta. rewrite !andb_true_iff. intros ((H1 & H2) & H3). split; [discriminate|].
  cbn [all_word]. rewrite H3, andb_true_r. unfold word_char. rewrite H1, H2. now rewrite !orb_true_r.
Qed.
Lemma laid_word w ts s : is_word w -> ~ starts_word s -> g_laid_out ts s -> g_laid_out (w :: ts) (append w s).
Proof. intros H Hs. apply laid_here; [right; left; exact H|]. intros _. exact Hs. Qed.
Lemma laid_quotes q w ts s : In q g_quotes -> good_text w -> g_laid_out ts s -> g_laid_out (in_quotes q w :: ts) (append (in_quotes q w) s).
Proof.
  intros Hq [Hw He]. assert (Hqb : q <> backslash) by (intros ->; simpl in Hq; intuition discriminate).
  assert (Hqw : word_char q = false) by (simpl in Hq; destruct Hq as [<-|[<-|[<-|[]]]]; reflexivity).
  apply laid_here.
  - right. right. exists q, (escape q w). split; [exact Hq|]. split; [now apply escape_quoted|]. split; [now apply escape_nonempty|reflexivity].
  - intros [_ H]. unfold in_quotes in H. cbn [all_word] in H. rewrite Hqw in H. discriminate.
Qed.

Lemma laid_vars vars : Forall (fun v => is_variable v = true) vars -> forall ts s, ~ starts_word s ->
  g_laid_out ts s -> g_laid_out (vars_tokens vars ++ ts) (append (String.concat ", " vars) s).
Proof.
  induction vars as [|v vars IH]; intros HF ts s Hs Hl; [exact Hl|]. inversion HF as [|? ? Hv HF']; subst.
  destruct vars as [|v' vars].
  - simpl. apply laid_word; [now apply variable_word|exact Hs|exact Hl].
  - specialize (IH HF' ts s Hs Hl). set (rest := v' :: vars) in *.
    change (vars_tokens (v :: rest) ++ ts) with (v :: "," :: (vars_tokens rest ++ ts)).
    change (String.concat ", " (v :: rest)) with (append v (append ", " (String.concat ", " rest))).
    rewrite !str_app_assoc. apply laid_word; [now apply variable_word|simpl; discriminate|].
    change (append ", " (append (String.concat ", " rest) s)) with (append "," (append " " (append (String.concat ", " rest) s))).
    apply laid_mark; [simpl; auto|]. apply laid_gap; [exact space_junk|]. exact IH.
Qed.
Lemma laid_atom p vars ts s : good_atom p vars -> g_laid_out ts s -> g_laid_out (atom_tokens p vars ++ ts) (append (show_atom p vars) s).
Proof.
  intros [Hp Hv] Hl. unfold atom_tokens, show_atom. rewrite !str_app_assoc. cbn [app]. rewrite <- app_assoc.
  apply laid_word; [exact Hp|simpl; discriminate|]. apply laid_mark; [simpl; auto|]. apply laid_vars; [exact Hv|simpl; discriminate|].
  apply laid_mark; [simpl; auto 8|exact Hl].
Qed.
Lemma laid_item write i ts s : good_item write i -> g_laid_out ts s -> g_laid_out (item_tokens i ++ ts) (append (show_item i) s).
Proof.
  intros Hg Hl.
  assert (Hmark : forall o, g_laid_out (mark_tokens o ++ ts) (append (show_mark o) s)).
  { intros [|]; [|exact Hl]. apply (laid_mark "?"); [simpl; auto|exact Hl]. }
  destruct i as [p vars o|q w o|r]; cbn [item_tokens show_item].
  - destruct Hg as [Hg _]. rewrite str_app_assoc. rewrite <- app_assoc. apply laid_atom; [exact Hg|apply Hmark].
  - destruct Hg as [Hq Hg]. rewrite str_app_assoc. cbn [app]. apply laid_quotes; [simpl; destruct Hq; auto|exact Hg|apply Hmark].
  - apply laid_quotes; [simpl; auto|exact Hg|exact Hl].
Qed.
Lemma laid_more write l : Forall (fun ji => good_item write (snd ji)) l -> g_laid_out (more_tokens l) (show_more l).
Proof.
  induction 1 as [|[j i] l Hi _ IH]; [constructor; exact I|]. cbn [show_more fold_right more_tokens flat_map fst snd].
  rewrite <- app_assoc. apply (laid_item write i) in IH; [|exact Hi]. destruct j; cbn [joiner_tokens show_joiner app].
  - apply laid_gap; [exact space_junk|exact IH].
  - apply laid_mark; [simpl; auto 9|exact IH].
  - apply laid_mark; [simpl; auto 9|exact IH].
Qed.
Lemma laid_body write b : good_body write b -> g_laid_out (body_tokens b) (show_body b).
Proof.
  destruct b as [[i l]|]; [|intros _; constructor; exact I]. intros [Hi Hl]. apply (laid_item write); [exact Hi|]. now apply (laid_more write).
Qed.
Lemma laid_rule write p vars b : good_atom p vars -> good_body write b ->
  g_laid_out (atom_tokens p vars ++ "->" :: body_tokens b) (show_rule p vars b).
Proof.
  intros Ha Hb. apply laid_atom; [exact Ha|]. change (append " -> " (show_body b)) with (append " " (append "->" (append " " (show_body b)))).
  apply laid_gap; [exact space_junk|]. apply laid_mark; [simpl; auto|]. apply laid_gap; [exact space_junk|]. now apply (laid_body write).
Qed.

(** *** parsing the tokens *)
Lemma word_identifier p : is_word p -> is_identifier p = true.
Proof. intros [H1 H2]. unfold is_identifier. apply String.eqb_neq in H1. now rewrite H1, H2. Qed.
Lemma parse_vars vars rest : Forall (fun v => is_variable v = true) vars -> parse_args (vars_tokens vars ++ ")" :: rest) = (vars, ")" :: rest).
Proof.
  induction 1 as [|v vars Hv HF IH]; [reflexivity|]. destruct vars as [|v' vars].
  - simpl. rewrite Hv. reflexivity.
  - set (more := v' :: vars) in *. change (vars_tokens (v :: more)) with (v :: "," :: vars_tokens more). cbn [app parse_args]. rewrite Hv.
    change (String.eqb "," ",") with true. cbn match. now rewrite IH.
Qed.
Lemma parse_atom_tokens p vars rest : good_atom p vars ->
  parse_g_atom (atom_tokens p vars ++ rest) = Some (mkCons p vars PRelation false false, rest).
Proof.
  intros [Hp Hv]. unfold atom_tokens. cbn [app parse_g_atom]. rewrite word_identifier by exact Hp. cbn [andb String.eqb].
  change (String.eqb "(" "(") with true. cbn match. rewrite <- app_assoc. cbn [app]. rewrite parse_vars by exact Hv. reflexivity.
Qed.
Lemma quotes_no_atom q w rest : word_char q = false -> parse_g_atom (in_quotes q w :: rest) = None.
Proof.
  intros Hq. unfold parse_g_atom. destruct rest as [|o rest]; [reflexivity|].
  assert (E : is_identifier (in_quotes q w) = false) by (unfold is_identifier, in_quotes; cbn [all_word]; rewrite Hq; now rewrite andb_false_r).
  now rewrite E.
Qed.
(** [rest] does not start with a question mark *)
Definition no_mark (rest : list string) : Prop := hd "" rest <> "?".
Lemma parse_no_mark rest : no_mark rest -> parse_optional rest = (false, rest).
Proof. destruct rest as [|t rest]; [reflexivity|]. intros H. unfold no_mark in H. cbn [hd] in H. apply String.eqb_neq in H. unfold parse_optional. now rewrite H. Qed.
Lemma parse_mark o rest : no_mark rest -> parse_optional (mark_tokens o ++ rest) = (o, rest).
Proof. destruct o; [reflexivity|apply parse_no_mark]. Qed.

Lemma parse_item_tokens write i rest : good_item write i -> no_mark rest ->
  parse_item write (item_tokens i ++ rest) = Some (item_constituent i, rest).
Proof.
  intros Hg Hr. destruct i as [p vars o|q w o|r]; unfold parse_item.
  - destruct Hg as [Hg Ho]. cbn [item_tokens]. rewrite <- app_assoc, parse_atom_tokens by exact Hg. destruct write.
    + rewrite parse_mark by exact Hr. destruct o; reflexivity.
    + destruct o; [specialize (Ho eq_refl); discriminate|reflexivity].
  - destruct Hg as [Hq [Hw He]]. cbn [item_tokens]. cbn [app]. rewrite quotes_no_atom by (destruct Hq as [->| ->]; reflexivity).
    assert (Hqb : q <> backslash) by (destruct Hq as [->| ->]; discriminate).
    assert (E1 : parse_g_regexp (in_quotes q w :: mark_tokens o ++ rest) = None) by (destruct Hq as [->| ->]; reflexivity).
    assert (E2 : parse_g_string (in_quotes q w :: mark_tokens o ++ rest) = Some (w, mark_tokens o ++ rest)).
    { unfold parse_g_string. rewrite inside_in_quotes. destruct Hq as [->| ->]; now rewrite unescape_escape by discriminate. }
    rewrite E1, E2. apply String.eqb_neq in Hw. rewrite Hw, parse_mark by exact Hr. reflexivity.
  - destruct Hg as [Hw He]. cbn [item_tokens]. cbn [app]. rewrite quotes_no_atom by reflexivity.
    assert (E1 : parse_g_regexp (in_quotes slash r :: rest) = Some (r, rest)).
    { unfold parse_g_regexp. rewrite inside_in_quotes. now rewrite unescape_escape by discriminate. }
    rewrite E1. apply String.eqb_neq in Hw. rewrite Hw. reflexivity.
Qed.

Lemma item_tokens_head write i : good_item write i -> exists t ts, item_tokens i = t :: ts /\ t <> "+" /\ t <> "~" /\ t <> "?".
Proof.
  intros Hg. destruct i as [p vars o|q w o|r]; simpl in Hg.
  - destruct Hg as [[Hp _] _]. exists p, ("(" :: (vars_tokens vars ++ [")"]) ++ mark_tokens o). split; [reflexivity|].
    destruct Hp as [_ Hp]. repeat split; intros ->; discriminate Hp.
  - destruct Hg as [Hq _]. exists (in_quotes q w), (mark_tokens o). split; [reflexivity|]. destruct Hq as [->| ->]; repeat split; discriminate.
  - exists (in_quotes slash r), []. repeat split; discriminate.
Qed.
Lemma more_no_mark write l : Forall (fun ji => good_item write (snd ji)) l -> no_mark (more_tokens l).
Proof.
  intros H. destruct H as [|[j i] l Hi _]; [discriminate|]. unfold no_mark. cbn [more_tokens flat_map fst snd].
  destruct j; cbn [joiner_tokens app hd]; [|discriminate|discriminate].
  destruct (item_tokens_head write i Hi) as (t & ts & -> & _ & _ & H). exact H.
Qed.
Lemma parse_more write l : Forall (fun ji => good_item write (snd ji)) l -> forall i n, good_item write i -> length l < n ->
  parse_consequents n write (item_tokens i ++ more_tokens l) = Ok (body_constituents (Some (i, l)), []).
Proof.
  induction 1 as [|[j i'] l Hi' HF IH]; intros i n Hi Hn; (destruct n as [|n]; [simpl in Hn; lia|]); cbn [parse_consequents].
  - rewrite parse_item_tokens by (exact Hi || (exact (more_no_mark write [] (Forall_nil _)))). reflexivity.
  - rewrite (parse_item_tokens write i) by (exact Hi || (apply (more_no_mark write); constructor; assumption)).
    cbn [more_tokens flat_map fst snd] in *. fold (more_tokens l). cbn [length] in Hn. specialize (IH i' n Hi' ltac:(lia)).
    rewrite <- app_assoc. destruct j; cbn [joiner_tokens app].
    + destruct (item_tokens_head write i' Hi') as (t & ts & E & N1 & N2 & _). rewrite E in *. cbn [app] in *.
      apply String.eqb_neq in N1, N2. rewrite N1, N2, IH. reflexivity.
    + change (String.eqb "+" "+") with true. cbn match. rewrite IH. reflexivity.
    + change (String.eqb "~" "+") with false. change (String.eqb "~" "~") with true. cbn match. rewrite IH. reflexivity.
Qed.
Lemma more_length write l : Forall (fun ji => good_item write (snd ji)) l -> length l <= length (more_tokens l).
Proof.
  induction 1 as [|[j i] l Hi _ IH]; [auto|]. cbn [more_tokens flat_map length fst snd]. rewrite !app_length.
  destruct (item_tokens_head write i Hi) as (t & ts & -> & _). cbn [length]. unfold more_tokens in IH. lia.
Qed.

Lemma parse_tokens write p vars b syntax : good_atom p vars -> good_body write b ->
  findall grammar_token syntax = atom_tokens p vars ++ "->" :: body_tokens b ->
  parse_syntax write syntax = Ok (mkCons p vars PRelation false false, body_constituents b).
Proof.
  intros Ha Hb E. unfold parse_syntax. rewrite E, parse_atom_tokens by exact Ha. change (String.eqb "->" "->") with true. cbn match.
  destruct b as [[i l]|]; [|reflexivity]. destruct Hb as [Hi Hl]. cbn [body_tokens].
  rewrite (parse_more write l Hl i) by (exact Hi || (rewrite app_length; pose proof (more_length write l Hl); lia)). reflexivity.
Qed.

(** A rule that is written down and read again is the same rule. *)
Theorem C73_rules_round_trip :
  forall write p vars b, good_atom p vars -> good_body write b ->
    parse_syntax write (show_rule p vars b) = Ok (mkCons p vars PRelation false false, body_constituents b).
Proof.
  intros write p vars b Ha Hb. apply parse_tokens; [exact Ha|exact Hb|]. apply g_findall. now apply (laid_rule write).
Qed.
Print Assumptions C73_rules_round_trip.

Definition quote_text : string := String quote2 (append "a" (String backslash (String quote1 "b"))).
Example C73_example :
  let b := Some (IWord quote1 "it's" true, [(JPlus, IAtom "np" ["E1"; "E2"] false); (JTilde, IRegexp "a/\d+"); (JSpace, IWord quote2 quote_text false)]) in
  good_atom "s" ["V"] /\ good_body false b /\
  show_rule "s" ["V"] b = append "s(V) -> 'it\'s'?+np(E1, E2)~/a\/\d+/ " (String quote2 (append "\" (append quote_text (String quote2 "")))) /\
  parse_syntax false (show_rule "s" ["V"] b) =
    Ok (mkCons "s" ["V"] PRelation false false,
        [mkCons "it's" [] PWord true false; mkCons "np" ["E1"; "E2"] PRelation false false; mkCons " " [] PWord true true;
         mkCons "a/\d+" [] PRegExp false false; mkCons " " [] PWord false true; mkCons quote_text [] PWord false false]).
Proof.
  intros b. assert (Ha : good_atom "s" ["V"]) by (split; [split; [discriminate|reflexivity]|constructor; [reflexivity|constructor]]).
  assert (Hb : good_body false b).
  { split; [split; [left; reflexivity|split; [discriminate|reflexivity]]|].
    constructor; [split; [split; [split; [discriminate|reflexivity]|repeat constructor]|discriminate]|].
    constructor; [split; [discriminate|reflexivity]|]. constructor; [split; [right; reflexivity|split; [discriminate|reflexivity]]|constructor]. }
  split; [exact Ha|]. split; [exact Hb|]. split; [reflexivity|]. rewrite C73_rules_round_trip by assumption. reflexivity.
Qed.

(** A word that ends with a backslash cannot be written: its closing quote is
    taken for an escaped one when another quote follows. *)
Theorem C73_backslash_at_the_end_refuted :
  exists b, good_atom "s" ["V"] /\
    (match b with Some (IWord q w _, l) => q = quote1 /\ w <> "" /\ Forall (fun ji => good_item false (snd ji)) l | _ => False end) /\
    parse_syntax false (show_rule "s" ["V"] b) = Exn (Raise "Could not complete parsing the consequents").
Proof.
  exists (Some (IWord quote1 (String backslash "") false, [(JPlus, IWord quote1 "b" false)])).
  split; [split; [split; [discriminate|reflexivity]|repeat constructor]|]. split.
  - split; [reflexivity|]. split; [discriminate|]. constructor; [|constructor]. split; [left; reflexivity|split; [discriminate|reflexivity]].
  - reflexivity.
Qed.
Print Assumptions C73_backslash_at_the_end_refuted.

(** ** C74 *)

(** [g_laid_out ts text] (LexerProofs.v): [text] consists of the tokens [ts]
    with arbitrary other characters between them.  These do not matter. *)
Theorem C74_unknown_characters_are_skipped :
  forall write ts text1 text2, g_laid_out ts text1 -> g_laid_out ts text2 ->
    parse_syntax write text1 = parse_syntax write text2.
Proof. intros write ts t1 t2 H1 H2. unfold parse_syntax. now rewrite (g_findall _ _ H1), (g_findall _ _ H2). Qed.
Print Assumptions C74_unknown_characters_are_skipped.

(** In particular, between any two parts of a rule. *)
Theorem C74_rules_with_unknown_characters :
  forall write p vars b text, good_atom p vars -> good_body write b ->
    g_laid_out (atom_tokens p vars ++ "->" :: body_tokens b) text ->
    parse_syntax write text = Ok (mkCons p vars PRelation false false, body_constituents b).
Proof. intros write p vars b text Ha Hb Hl. apply parse_tokens; [exact Ha|exact Hb|]. now apply g_findall. Qed.
Print Assumptions C74_rules_with_unknown_characters.

Example C74_example :
  parse_syntax false "s(V) => -> np(E) & {vp(V)}!" = parse_syntax false "s(V) -> np(E) vp(V)" /\
  g_laid_out ["s"; "("; "V"; ")"] "s [(V;):".
Proof.
  split; [reflexivity|]. apply (laid_word "s" _ " [(V;):"); [split; [discriminate|reflexivity]|simpl; discriminate|].
  apply (laid_gap " [" _ "(V;):"); [repeat split; try reflexivity; simpl; intuition discriminate|].
  apply (laid_mark "(" _ "V;):"); [simpl; auto|]. apply (laid_word "V" _ ";):"); [split; [discriminate|reflexivity]|simpl; discriminate|].
  apply (laid_gap ";" _ "):"); [repeat split; try reflexivity; simpl; intuition discriminate|].
  apply (laid_mark ")" _ ":"); [simpl; auto 8|]. constructor. repeat split; try reflexivity. simpl. intuition discriminate.
Qed.

(** ** C75 *)
Theorem C75_learn_grammar_rule_raises :
  forall V (values : list (@simple_rule V)) (ix : gindex (@meaning V)),
    learn_grammar_rule values ix = (Exn (match values with [] => IndexErr | _ => TypeErr end), ix) /\
    (forall r write, call_parse_simple_rule [ARule r; AWrite write] ix = (parse_simple_rule r write, ix)).
Proof. intros V [|r values] ix; (split; [reflexivity|intros; reflexivity]). Qed.
Print Assumptions C75_learn_grammar_rule_raises.

(** although the parser accepts the rule when it is told which kind it is *)
Example C75_example :
  let r := mkSimple (Some "s(V) -> 'hello'") (Some tt) None None None None None None in
  (exists rule, call_parse_simple_rule [ARule r; AWrite false] [] = (Ok rule, [])) /\
  learn_grammar_rule [r] [] = (Exn TypeErr, []).
Proof. split; [eexists; reflexivity|reflexivity]. Qed.

(** ** C93 *)
Section Keys.
  Context {V : Type}.
  Notation simple_rule := (@simple_rule V).

  (** A grammar for reading only looks at [syn], [sem], [exec], [dialog] and
      [boost], a grammar for writing at [syn], [if], [format], [post],
      [dialog] and [boost]. *)
  Theorem C93_read_grammars_ignore_other_keys :
    forall r r' : simple_rule, sr_syn r = sr_syn r' -> sr_sem r = sr_sem r' -> sr_exec r = sr_exec r' ->
      sr_dialog r = sr_dialog r' -> sr_boost r = sr_boost r' ->
      parse_simple_rule r false = parse_simple_rule r' false.
  Proof. intros r r' E1 E2 E3 E4 E5. unfold parse_simple_rule. now rewrite E1, E2, E3, E4, E5. Qed.
  Theorem C93_write_grammars_ignore_other_keys :
    forall r r' : simple_rule, sr_syn r = sr_syn r' -> sr_if r = sr_if r' -> sr_format r = sr_format r' -> sr_post r = sr_post r' ->
      sr_dialog r = sr_dialog r' -> sr_boost r = sr_boost r' ->
      parse_simple_rule r true = parse_simple_rule r' true.
  Proof. intros r r' E1 E2 E3 E4 E5 E6. unfold parse_simple_rule. now rewrite E1, E2, E3, E4, E5, E6. Qed.

  (** A grammar of well-written rules is accepted, and each rule is found
      under its category with its meaning. *)
  Theorem C93_grammars_are_loaded :
    forall (write : bool) (l : list (string * list string * body * simple_rule)),
      Forall (fun x => match x with (p, vars, b, r) =>
        good_atom p vars /\ good_body write b /\ sr_syn r = Some (show_rule p vars b) end) l ->
      parse_grammar (map snd l) write =
      Ok (grammar_rules (map (fun x => match x with (p, vars, b, r) =>
        new_rule (mkCons p vars PRelation false false) (body_constituents b)
          (if write then mkMeaning (sr_if r) (sr_format r) (sr_post r) (sr_dialog r)
           else mkMeaning (sr_sem r) (sr_exec r) None (sr_dialog r))
          (match sr_boost r with Some b => b | None => 0%Z end) end) l)).
  Proof.
    intros write l H. unfold parse_grammar.
    assert (E : omap (fun r => parse_simple_rule r write) (map snd l) =
      Ok (map (fun x => match x with (p, vars, b, r) =>
        new_rule (mkCons p vars PRelation false false) (body_constituents b)
          (if write then mkMeaning (sr_if r) (sr_format r) (sr_post r) (sr_dialog r)
           else mkMeaning (sr_sem r) (sr_exec r) None (sr_dialog r))
          (match sr_boost r with Some b => b | None => 0%Z end) end) l)).
    { induction H as [|[[[p vars] b] r] l (Ha & Hb & Hs) HF IH]; [reflexivity|]. cbn [map snd omap].
      unfold parse_simple_rule at 1. rewrite Hs, (C73_rules_round_trip write p vars b Ha Hb). cbn [obind fst snd].
      destruct write; rewrite IH; reflexivity. }
    now rewrite E.
  Qed.
End Keys.
Print Assumptions C93_read_grammars_ignore_other_keys.
Print Assumptions C93_write_grammars_ignore_other_keys.
Print Assumptions C93_grammars_are_loaded.

Example C93_example :
  let r := mkSimple (Some "s(V) -> np(E)~vp(V)?") (Some "sem") (Some "if") (Some "exec") (Some "format") (Some "post") None (Some 2%Z) in
  match parse_simple_rule r true with Ok g => g_mean g = mkMeaning (Some "if") (Some "format") (Some "post") None /\ g_boost g = 2%Z | _ => False end /\
  parse_simple_rule r false = Exn (Raise "Could not complete parsing the consequents") /\
  parse_simple_rule (mkSimple None (Some "sem") None None None None None None) false = Exn (Raise "A rule must contain a 'syn' value").
Proof. repeat split. Qed.
