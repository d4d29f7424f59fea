(** * Properties C76-C78, C94 and C95: inference rule files *)

From Coq Require Import ZArith QArith Qreduction String Ascii List Bool Arith Lia DecimalString Decimal DecimalFacts DecimalZ.
From Verif Require Import Py Effects Earley InferenceModule Lexer LexerProofs GrammarParser InferenceRuleParser
  RuleParserProofs RuleParserProofs2 RuleParserProofs3 RuleSyntax RuleParserProofs4.
Import ListNotations.
Local Close Scope Q_scope.
Local Open Scope nat_scope.
Local Open Scope string_scope.
Local Open Scope list_scope.

Lemma find_from_length token s : forall k, length (find_from token k s) <= String.length s.
Proof.
  induction s as [|c s IH]; intros k; [destruct k; cbn; lia|]. cbn [find_from String.length]. destruct k as [|k]; [|specialize (IH k); lia].
  destruct (token (String c s)) as [|k]; [specialize (IH 0); lia|]. cbn [length]. specialize (IH k). lia.
Qed.
Lemma strip_length ts : length (strip ts) <= length ts.
Proof. induction ts as [|t ts IH]; [auto|]. cbn [strip filter]. fold (strip ts). destruct (negb (is_comment t)); cbn [length]; lia. Qed.
Lemma text_size text : size (findall rule_token text) <= String.length text.
Proof. unfold size. etransitivity; [apply strip_length|]. apply find_from_length. Qed.
Lemma parse_rules_tokens n text : parse_rules n text = parse_tokens n (findall rule_token text).
Proof. reflexivity. Qed.

(** ** C94 *)

(** Every text is parsed in a number of steps that grows linearly with its
    length, and more steps do not change the result. *)
Theorem C94_parsing_terminates :
  forall text n m, 7 * String.length text + 5 < n -> n <= m ->
    parse_rules n text <> OutOfFuel /\ parse_rules m text = parse_rules n text.
Proof.
  intros text n m Hn Hm. rewrite !parse_rules_tokens. pose proof (text_size text) as HS.
  assert (HO : parse_tokens n (findall rule_token text) <> OutOfFuel) by (apply tokens_enough; lia).
  split; [exact HO|]. destruct (tokens_more_fuel n m (findall rule_token text) Hm) as [E|E]; [contradiction|now symmetry].
Qed.
Print Assumptions C94_parsing_terminates.

(** The only exception is a TypeError, and only for a text that stops after an
    opening bracket or a comma (comments aside). *)
Theorem C94_only_unfinished_texts_raise :
  forall text n e, parse_rules n text = Exn e ->
    e = TypeErr /\ exists before t, strip (findall rule_token text) = before ++ [t] /\ (t = "(" \/ t = ",").
Proof.
  intros text n e. rewrite parse_rules_tokens. unfold parse_tokens. intros H.
  pose proof (proj2 (list_reads n n (findall rule_token text))) as HR.
  destruct (parse_rule_list n n (findall rule_token text)) as [[l q]|e'|]; cbn [obind] in H; try discriminate. injection H as <-. apply (HR e' eq_refl).
Qed.
Print Assumptions C94_only_unfinished_texts_raise.

Example C94_example :
  parse_rules 200 "p('a', " = Exn TypeErr /\ parse_rules 200 "p('a'" = Ok None /\ parse_rules 200 "p('a')" = Ok None.
Proof. repeat split. Qed.

(** ** C76 *)

(** A text that consists of the tokens of well-formed rules, with any
    characters that are no token between them and comments anywhere, is parsed
    to these rules. *)
Theorem C76_rule_files_are_read :
  forall (rules : list srule) (ts : list string) (text : string) n,
    Forall wf_rule rules -> r_laid_out ts text -> strip ts = flat_map rule_toks rules ->
    7 * String.length text + 5 < n ->
    parse_rules n text = Ok (Some (map rule_denote rules)).
Proof.
  intros rules ts text n HW HL HS Hn. rewrite parse_rules_tokens. pose proof (text_size text) as HT. rewrite (r_findall ts text HL) in *.
  destruct (tokens_read rules HW) as [N HN]. apply tokens_result; [|discriminate|lia].
  exists N. intros k Hk. rewrite <- (HN k Hk). apply parse_tokens_same. unfold same. rewrite HS.
  assert (HI : forall l, strip (strip l) = strip l).
  { induction l as [|t l IH]; [reflexivity|]. cbn [strip filter]. fold (strip l). destruct (negb (is_comment t)) eqn:E; [|exact IH].
    cbn [strip filter]. rewrite E. fold (strip (strip l)). now rewrite IH. }
  rewrite <- HS. symmetry. apply HI.
Qed.
Print Assumptions C76_rule_files_are_read.

(** *** a printer *)
Lemma space_junk : gap r_junk " ".
Proof. split; [split; [reflexivity|]|exact I]. simpl. intuition discriminate. Qed.
Lemma space_follows t s : r_follows t (String " " s).
Proof. split; [intros _ H; exact (Bool.diff_false_true H)|]. split; [reflexivity|]. intros _ H. discriminate H. Qed.
Lemma gap_app g ts s : gap r_junk g -> r_laid_out ts s -> r_laid_out ts (append g s).
Proof.
  intros Hg H. assert (Happ : forall a b, gap r_junk a -> gap r_junk b -> gap r_junk (append a b)).
  { induction a as [|c a IH]; intros b Ha Hb; [exact Hb|]. destruct Ha as [Hc Ha]. split; [exact Hc|auto]. }
  inversion H as [g' Hg'|g' t ts' s' Hg' Ht Hf Hl]; subst.
  - constructor. auto.
  - rewrite <- str_app_assoc. constructor; auto.
Qed.
Lemma spaced_laid_out ts : Forall r_tok ts -> r_laid_out ts (spaced ts).
Proof.
  induction 1 as [|t ts Ht _ IH]; [constructor; exact I|]. cbn [spaced].
  apply (laid_token r_tok r_follows r_junk "" t ts (String " " (spaced ts))); [exact I|exact Ht|apply space_follows|].
  apply (gap_app " "); [exact space_junk|exact IH].
Qed.

(** every token of a well-formed node is a token, and is no comment *)
Definition plain_tok (t : string) : Prop := r_tok t /\ is_comment t = false.
Lemma mark_plain t : In t r_marks -> plain_tok t.
Proof. intros H. split; [left; exact H|]. unfold r_marks in H. simpl in H. repeat (destruct H as [<-|H]; [reflexivity|]). destruct H. Qed.
Lemma sep_plain s ls : In s r_marks -> Forall (Forall plain_tok) ls -> Forall plain_tok (sep s ls).
Proof.
  intros Hs. induction 1 as [|x ls Hx Hl IH]; [constructor|]. destruct ls as [|y ls]; [exact Hx|]. rewrite sep_cons.
  apply Forall_app. split; [exact Hx|]. constructor; [now apply mark_plain|exact IH].
Qed.
Lemma repeat_plain t k : In t r_marks -> Forall plain_tok (repeat t k).
Proof. intros H. induction k; constructor; [now apply mark_plain|assumption]. Qed.
Lemma args_terms l : wf_args l -> Forall wf_term l.
Proof. induction 1; constructor; auto. Qed.
Lemma toks_plain x : (wf_term x \/ wf_atom x \/ wf_group x) -> Forall plain_tok (toks x).
Proof.
  assert (HM : forall t, In t ["."; ","; ";"; ":-"; "("; ")"] -> In t r_marks) by (intros t H; exact H).
  induction x as [q s|d|a b|v|k l IH|p l IH|l IH] using node_ind'; intros H; cbn [toks].
  - destruct H as [H|[H|H]]; [|inversion H|inversion H]. inversion H as [q' s' Hq Hs He| | | |x' Hg]; subst; [|inversion Hg].
    assert (Hqb : q <> backslash) by (destruct Hq; subst; discriminate).
    constructor; [|constructor]. split; [|unfold is_comment; rewrite quote_first; destruct Hq; subst; reflexivity].
    right. right. right. right. left. exists q, (escape q s). split; [destruct Hq; subst; simpl; auto|]. split; [now apply escape_quoted|].
    split; [now apply escape_nonempty|reflexivity].
  - destruct H as [H|[H|H]]; [|inversion H|inversion H]. inversion H as [|d' Hd Hz| | |x' Hg]; subst; [|inversion Hg].
    constructor; [|constructor]. split; [right; right; left; exact Hd|]. destruct (is_int_first d Hd) as (c & d' & -> & Hc & _).
    unfold is_comment. cbn [first_char]. now apply digit_first_not.
  - destruct H as [H|[H|H]]; [|inversion H|inversion H]. inversion H as [| |a' b' Ha Hb Hz| |x' Hg]; subst; [|inversion Hg].
    constructor; [|constructor]. split; [right; right; right; left; eauto|]. destruct (is_int_first a Ha) as (c & d' & -> & Hc & _).
    unfold is_comment. cbn [first_char append]. now apply digit_first_not.
  - destruct H as [H|[H|H]]; [|inversion H|inversion H]. inversion H as [| | |v' Hv|x' Hg]; subst; [|inversion Hg].
    pose proof (variable_is_word v Hv) as Hw. constructor; [|constructor]. split; [right; left; exact Hw|]. apply word_not_comment, Hw.
  - assert (Hg : wf_group (NGroup k l)).
    { destruct H as [H|[H|H]]; [inversion H; assumption|inversion H|exact H]. }
    inversion Hg as [k' l' Hne Ha E]; subst. apply Forall_app. split; [apply repeat_plain; simpl; auto 8|].
    apply Forall_app. split; [|apply repeat_plain; simpl; auto 8]. apply sep_plain; [simpl; auto|]. apply Forall_map.
    rewrite Forall_forall in IH, Ha |- *. intros x Hx. apply IH; auto.
  - assert (Ha : wf_atom (NAtom p l)).
    { destruct H as [H|[H|H]]; [inversion H; match goal with X : wf_group _ |- _ => inversion X end|exact H|inversion H]. }
    inversion Ha as [p' l' Hp Hl E|]; subst. constructor; [split; [right; left; exact Hp|apply word_not_comment, Hp]|].
    constructor; [apply mark_plain; simpl; auto 8|]. apply Forall_app. split; [|constructor; [apply mark_plain; simpl; auto 8|constructor]].
    apply sep_plain; [simpl; auto|]. apply Forall_map. apply args_terms in Hl. rewrite Forall_forall in IH, Hl |- *. intros x Hx. apply IH; auto.
  - assert (Ha : wf_atom (NOr l)).
    { destruct H as [H|[H|H]]; [inversion H; match goal with X : wf_group _ |- _ => inversion X end|exact H|inversion H]. }
    constructor; [apply mark_plain; simpl; auto 8|]. apply Forall_app. split; [|constructor; [apply mark_plain; simpl; auto 8|constructor]].
    apply sep_plain; [simpl; auto|]. apply Forall_map. inversion Ha as [|d1 d2 ds Hd E]; subst. rewrite Forall_forall in IH, Hd |- *. intros x Hx. apply IH; auto.
Qed.
Lemma rule_toks_plain r : wf_rule r -> Forall plain_tok (rule_toks r).
Proof.
  intros [Hh Hb]. unfold rule_toks. apply Forall_app. split; [apply toks_plain; auto|]. apply Forall_app. split.
  - destruct (s_body r) as [b|]; [|constructor]. constructor; [apply mark_plain; simpl; auto 8|]. apply toks_plain. auto.
  - constructor; [apply mark_plain; simpl; auto|constructor].
Qed.
Lemma plain_strip ts : Forall plain_tok ts -> strip ts = ts.
Proof. induction 1 as [|t ts [_ H] _ IH]; [reflexivity|]. cbn [strip filter]. fold (strip ts). now rewrite H, IH. Qed.

(** *** values that can be written *)
Lemma digits_of_uint u : all_digits (NilEmpty.string_of_uint u) = true.
Proof. induction u; [reflexivity|..]; exact IHu. Qed.
Lemma repr_positive z : (0 < z)%Z -> is_int (repr_Z z) = true /\ digits_value 0 (repr_Z z) = z.
Proof.
  intros Hz. destruct z as [|p|p]; try lia. unfold repr_Z. cbn [Z.to_int NilZero.string_of_int].
  set (u := Pos.to_uint p). assert (Hu : u <> Nil).
  { intros E. pose proof (DecimalPos.Unsigned.of_to p) as HP. fold u in HP. rewrite E in HP. discriminate. }
  assert (ES : NilZero.string_of_uint u = NilEmpty.string_of_uint u) by (destruct u; [congruence|reflexivity..]).
  rewrite ES. assert (HI : is_int (NilEmpty.string_of_uint u) = true).
  { unfold is_int. rewrite digits_of_uint. destruct u; [congruence|reflexivity..]. }
  split; [exact HI|]. rewrite <- int_of_digits_value by exact HI. unfold int_of_digits. rewrite <- ES.
  rewrite NilZero.usu by exact Hu. unfold Z.of_uint. unfold u. rewrite DecimalPos.Unsigned.of_to. reflexivity.
Qed.

Lemma word_not_disjunction p : r_word p -> String.eqb p "$disjunction" = false.
Proof. intros [[_ H] _]. apply String.eqb_neq. intros ->. discriminate. Qed.

Definition written (v : value) : Prop :=
  (writable_term v -> wf_term (node_of v) /\ ~ bare (node_of v) /\ denote (node_of v) = v) /\
  (writable_atom v -> wf_atom (node_of v) /\ denote (node_of v) = v) /\
  (forall l, v = VList l -> writable_atoms l -> wf_group (node_of v) /\ denote (node_of v) = v).
(** and so are the parts of a list in a tuple *)
Definition deep_written (v : value) : Prop :=
  written v /\ match v with VList l => Forall written l | _ => True end.

Lemma map_denote l : Forall (fun v => denote (node_of v) = v) l -> map denote (map node_of l) = l.
Proof. induction 1 as [|v l Hv _ IH]; [reflexivity|]. cbn [map]. now rewrite Hv, IH. Qed.
Lemma args_wf l : Forall (fun v => wf_term (node_of v) /\ ~ bare (node_of v)) l -> wf_args (map node_of l).
Proof.
  induction 1 as [|v l [H1 H2] Hl IH]; [constructor|]. cbn [map]. destruct l as [|w l]; [constructor; exact H1|].
  cbn [map] in *. constructor; assumption.
Qed.
Lemma list_written l : Forall written l -> forall k, writable_atoms l -> wf_group (NGroup k (map node_of l)) /\ map denote (map node_of l) = l.
Proof.
  intros HF k HW. inversion HW as [l' Hne HA E]; subst. rewrite Forall_forall in HF, HA. split.
  - constructor; [destruct l; [congruence|discriminate]|]. apply Forall_map, Forall_forall. intros v Hv. apply (HF v Hv), HA, Hv.
  - apply map_denote, Forall_forall. intros v Hv. apply (HF v Hv), HA, Hv.
Qed.
Lemma all_written v : deep_written v.
Proof.
  assert (HL : forall l, Forall deep_written l -> Forall written l).
  { intros l H. rewrite Forall_forall in *. intros u Hu. apply (H u Hu). }
  induction v using value_ind'; split; try exact I; try (now apply HL);
    (split; [|split]; [intros HT; inversion HT; subst|intros HA; inversion HA; subst|intros l' E HA; try discriminate E]).
  all: try (cbn [node_of denote]; split; [now constructor|split; [exact (fun x => x)|reflexivity]]).
  all: cbn [node_of].
  - match goal with X : (0 < ?z)%Z |- _ => destruct (repr_positive z X) as [HI HV]; split; [constructor; [exact HI|rewrite HV; lia]|split; [exact (fun x => x)|cbn [denote]; now rewrite HV]] end.
  - split; [constructor; [now left|assumption|assumption]|split; [exact (fun x => x)|reflexivity]].
  - match goal with X : r_word _ |- _ => rewrite (word_not_disjunction _ X) end.
    match goal with X : Forall _ (VStr ?p :: ?l), Y : Forall writable_term ?l |- _ =>
      inversion X as [|? ? _ HF]; subst; rewrite Forall_forall in HF, Y end.
    split.
    + constructor; [assumption|]. apply args_wf, Forall_forall. intros u Hu.
      match goal with Y : forall x, In x _ -> writable_term x |- _ => destruct (proj1 (proj1 (HF u Hu)) (Y u Hu)) as (HT1 & HT2 & _) end. auto.
    + cbn [denote]. f_equal. f_equal. apply map_denote, Forall_forall. intros u Hu.
      match goal with Y : forall x, In x _ -> writable_term x |- _ => apply (proj1 (proj1 (HF u Hu)) (Y u Hu)) end.
  - change (String.eqb "$disjunction" "$disjunction") with true. cbn match.
    match goal with X : Forall _ (VStr _ :: _) |- _ => inversion X as [|? ? _ HF]; subst; inversion HF as [|? ? [_ HW] _]; subst end.
    match goal with Y : Forall (fun d => exists l, _) _ |- _ => rename Y into HO end. rewrite Forall_forall in HW, HO.
    assert (HD : forall d, In d (d1 :: d2 :: ds) -> wf_group (node_of d) /\ denote (node_of d) = d).
    { intros d Hd. destruct (HO d Hd) as (l & -> & Hl). exact (proj2 (proj2 (HW (VList l) Hd)) l eq_refl Hl). }
    split.
    + cbn [map]. apply wf_or. change (node_of d1 :: node_of d2 :: map node_of ds) with (map node_of (d1 :: d2 :: ds)).
      apply Forall_map, Forall_forall. intros d Hd. apply HD, Hd.
    + cbn [denote]. f_equal. f_equal. f_equal. f_equal. apply map_denote, Forall_forall. intros d Hd. apply HD, Hd.
  - match goal with X : writable_atoms ?l |- _ => destruct (list_written l (HL l ltac:(assumption)) 1 X) as [HG HD] end.
    split; [apply wf_list; [exact HG|exact I]|]. split; [exact (fun x => x)|]. cbn [denote]. now rewrite HD.
  - injection E as <-. match goal with X : writable_atoms ?l |- _ => destruct (list_written l (HL l ltac:(assumption)) 1 X) as [HG HD] end.
    split; [exact HG|]. cbn [denote]. now rewrite HD.
Qed.
Lemma source_written r : writable_rule r -> wf_rule (source_of r) /\ rule_denote (source_of r) = r.
Proof.
  intros [(p & l & Eh & Hp & Hl) (b & Eb & Hb)]. unfold source_of. rewrite Eh, Eb. rewrite Forall_forall in Hl, Hb.
  assert (HA : wf_args (map node_of l)).
  { apply args_wf, Forall_forall. intros v Hv. destruct (proj1 (proj1 (all_written v)) (Hl v Hv)) as (H1 & H2 & _). auto. }
  assert (HD : map denote (map node_of l) = l).
  { apply map_denote, Forall_forall. intros v Hv. apply (proj1 (proj1 (all_written v)) (Hl v Hv)). }
  assert (HB : map denote (map node_of b) = b).
  { apply map_denote, Forall_forall. intros v Hv. apply (proj1 (proj2 (proj1 (all_written v))) (Hb v Hv)). }
  destruct r as [h bd]. cbn in Eh, Eb. subst. unfold wf_rule, rule_denote. destruct b as [|x b]; cbn [s_pred s_args s_body].
  - split; [split; [now constructor|exact I]|]. now rewrite HD.
  - split.
    + split; [now constructor|]. constructor; [discriminate|]. apply Forall_map, Forall_forall. intros v Hv.
      apply (proj1 (proj2 (proj1 (all_written v))) (Hb v Hv)).
    + cbn [denote]. now rewrite HD, HB.
Qed.

(** Facts and rules of texts, positive integers, variables, lists of atoms and
    disjunctions can be written to a file and read back. *)
Theorem C76_rules_round_trip :
  forall rules n, Forall writable_rule rules -> 7 * String.length (write_rules rules) + 5 < n ->
    parse_rules n (write_rules rules) = Ok (Some rules).
Proof.
  intros rules n HW Hn.
  assert (HS : Forall wf_rule (map source_of rules)).
  { apply Forall_map. rewrite Forall_forall in HW |- *. intros r Hr. apply source_written, HW, Hr. }
  assert (ET : flat_map (fun r => rule_toks (source_of r)) rules = flat_map rule_toks (map source_of rules)).
  { clear. induction rules as [|r rules IH]; [reflexivity|]. cbn [map flat_map]. now rewrite IH. }
  assert (HP : Forall plain_tok (flat_map rule_toks (map source_of rules))).
  { apply Forall_flat_map. rewrite Forall_forall in HS |- *. intros r Hr. apply rule_toks_plain, HS, Hr. }
  unfold write_rules in *. rewrite ET in *.
  rewrite (C76_rule_files_are_read (map source_of rules) (flat_map rule_toks (map source_of rules)) _ n HS); [| |now apply plain_strip|exact Hn].
  - do 2 f_equal. rewrite map_map. rewrite Forall_forall in HW. rewrite <- (map_id rules) at 2. apply map_ext_in. intros r Hr. apply source_written, HW, Hr.
  - apply spaced_laid_out. rewrite Forall_forall in HP |- *. intros t Ht. apply (HP t Ht).
Qed.
Print Assumptions C76_rules_round_trip.

Example C76_example :
  let r1 := mkRule [VStr "parent"; VStr "mary"; VStr "it's"] (VList []) in
  let r2 := mkRule [VStr "p"; VVar "X"; VInt 12]
              (VList [VTuple [VStr "q"; VVar "X"; VList [VTuple [VStr "r"; VVar "X"]]; VInt 3];
                      VTuple [VStr "$disjunction"; VList [VList [VTuple [VStr "a"]]; VList [VTuple [VStr "b"; VVar "X"]; VTuple [VStr "c"]]]]]) in
  Forall writable_rule [r1; r2] /\ parse_rules 900 (write_rules [r1; r2]) = Ok (Some [r1; r2]).
Proof.
  cbv zeta.
  assert (W : forall p, is_word p -> first_digit p = false -> r_word p) by (intros; split; assumption).
  assert (WD : forall p, p <> "" -> all_word p = true -> is_word p) by (intros; split; assumption).
  split; [|vm_compute; reflexivity].
  repeat match goal with
  | |- Forall _ (_ :: _) => constructor
  | |- Forall _ [] => constructor
  | |- writable_rule _ => split; do 2 try eexists; cbn
  | |- _ /\ _ => split
  | |- r_word _ => apply W; [apply WD|]; [discriminate|reflexivity|reflexivity]
  | |- exists l, VList _ = _ /\ _ => eexists
  | |- writable_term (VStr _) => constructor; [discriminate|reflexivity]
  | |- writable_term (VInt _) => constructor; lia
  | |- writable_term (VVar _) => constructor; reflexivity
  | |- writable_term (VList _) => constructor
  | |- writable_atoms _ => constructor; [discriminate|]
  | |- writable_atom (VTuple [VStr "$disjunction"; _]) => apply wr_or
  | |- writable_atom _ => apply wr_simple
  | |- _ = _ => reflexivity
  end.
Qed.
(** leading zeros, floats, the other quotes, extra brackets, odd layout *)
Example C76_layout_example :
  parse_rules 900 "p(007, 2.50,""a"" , ((q(X) , r(X)))) :- ((a(X)));." = Ok None /\
  parse_rules 900 "p(007, 2.50,""a"" , ((q(X) , r(X)))) :- ((a(X)))  .  q()." =
  Ok (Some [mkRule [VStr "p"; VInt 7; VFloat (5 # 2); VStr "a"; VList [VTuple [VStr "q"; VVar "X"]; VTuple [VStr "r"; VVar "X"]]]
              (VList [VTuple [VStr "a"; VVar "X"]]);
            mkRule [VStr "q"] (VList [])]).
Proof. split; vm_compute; reflexivity. Qed.
(** A disjunction of one alternative is a pair of brackets, and brackets at
    the start of a body are around the whole of it. *)
Example C76_brackets_example :
  parse_rules 300 "p() :- (a())." = parse_rules 300 "p() :- a()." /\
  parse_rules 300 "p() :- (a()), b()." = Ok None.
Proof. split; vm_compute; reflexivity. Qed.

(** ** C77 *)

(** No argument in a parsed rule is zero or empty, at any depth. *)
Theorem C77_no_zero_or_empty_arguments :
  forall text n rules, parse_rules n text = Ok (Some rules) ->
    Forall (fun r => solid_atom (VTuple (ru_head r)) /\ exists l, ru_body r = VList l /\ Forall solid_atom l) rules.
Proof.
  intros text n rules. unfold parse_rules. destruct (parse_rule_list n n (findall rule_token text)) as [[l q]|e|] eqn:E; cbn [obind fst snd]; try discriminate.
  destruct (next_token q); [discriminate|]. intros [= <-]. apply (list_solid n n _ _ _ E).
Qed.
Print Assumptions C77_no_zero_or_empty_arguments.

(** A text with a zero anywhere, except as a predicate (before an opening
    bracket), is not accepted: the whole file is rejected. *)
Theorem C77_zeros_are_rejected :
  forall text n before t after,
    strip (findall rule_token text) = before ++ t :: after -> zero_token t -> (forall more, after <> "(" :: more) ->
    forall rules, parse_rules n text <> Ok (Some rules).
Proof.
  intros text n before t after HS Hz Ha rules. unfold parse_rules. pose proof (proj1 (list_reads n n (findall rule_token text))) as HR.
  destruct (parse_rule_list n n (findall rule_token text)) as [[l q]|e|]; cbn [obind fst snd]; try discriminate.
  destruct (next_token q) as [[]|] eqn:EN; [discriminate|]. intros _. destruct (HR l q eq_refl) as (l' & Hl & He).
  unfold eats in He. apply next_token_none in EN. rewrite EN, List.app_nil_r in He. subst l'. destruct (Hl before t after HS Hz) as (b & ->). apply (Ha b eq_refl).
Qed.
Print Assumptions C77_zeros_are_rejected.

Example C77_example :
  parse_rules 200 "p(0)." = Ok None /\ parse_rules 200 "p('a'). q(X, 0.00) :- r(X)." = Ok None /\
  parse_rules 200 "p(X) :- r(X, (s(0)))." = Ok None /\ zero_token "0.00" /\
  (exists r, parse_rules 200 "p(10)." = Ok (Some [r])).
Proof.
  repeat split; try (eexists; vm_compute; reflexivity).
  right. exists "0", "00". repeat split.
Qed.
(** An empty text is not rejected: it is no token, so the argument is gone.
    The same holds for a minus sign. *)
Theorem C77_empty_texts_and_signs_are_dropped_refuted :
  parse_rules 200 "p('')." = Ok (Some [mkRule [VStr "p"] (VList [])]) /\
  parse_rules 200 "p(-5)." = Ok (Some [mkRule [VStr "p"; VInt 5] (VList [])]).
Proof. split; vm_compute; reflexivity. Qed.
Print Assumptions C77_empty_texts_and_signs_are_dropped_refuted.

(** ** C78 *)

(** Two texts with the same tokens, comments aside, are parsed alike. *)
Theorem C78_comments_and_layout_do_not_matter :
  forall ts ts' text text' n, r_laid_out ts text -> r_laid_out ts' text' -> strip ts = strip ts' ->
    parse_rules n text = parse_rules n text'.
Proof.
  intros ts ts' text text' n H H' HS. rewrite !parse_rules_tokens, (r_findall _ _ H), (r_findall _ _ H'). now apply parse_tokens_same.
Qed.
Print Assumptions C78_comments_and_layout_do_not_matter.

(** *** a comment on a line of its own *)
Lemma follows_line t s rest : r_follows t s -> r_follows t (append s (String newline rest)).
Proof.
  intros (H1 & H2 & H3). split; [|split].
  - intros Hw. specialize (H1 Hw). destruct s as [|c s]; [intros H; discriminate H|exact H1].
  - intros Hd. specialize (H2 Hd). destruct s as [|c s]; [reflexivity|exact H2].
  - intros Hi Hs. destruct s as [|c s]; [discriminate Hs|]. specialize (H3 Hi Hs). destruct s as [|d s]; [reflexivity|exact H3].
Qed.
Lemma findall_prefix ts text rest : r_laid_out ts text ->
  findall rule_token (append text (String newline rest)) = ts ++ findall rule_token (String newline rest).
Proof.
  induction 1 as [g Hg|g t ts s Hg Ht Hf _ IH].
  - cbn [app]. apply (findall_gap rule_token r_junk r_junk_skipped). exact Hg.
  - rewrite !str_app_assoc. rewrite (findall_gap rule_token r_junk r_junk_skipped) by exact Hg.
    rewrite (findall_token rule_token r_tok r_follows r_tok_found r_tok_nonempty) by (exact Ht || apply follows_line, Hf).
    cbn [app]. now rewrite IH.
Qed.
(** Inserting a comment line after any line that ends between tokens does not
    change what is parsed, whatever comes next. *)
Theorem C78_comment_lines_can_be_inserted :
  forall ts before comment after n, r_laid_out ts before -> no_newline comment ->
    parse_rules n (append before (String newline (append "#" (append comment (String newline after))))) =
    parse_rules n (append before (String newline after)).
Proof.
  intros ts before comment after n HL HC. rewrite !parse_rules_tokens. apply parse_tokens_same.
  rewrite !(findall_prefix ts before) by exact HL. unfold same, strip. rewrite !filter_app. f_equal.
  assert (HN : gap r_junk (String newline "")) by (split; [split; [reflexivity|simpl; intuition discriminate]|exact I]).
  change (String newline ?x) with (append (String newline "") x) at 1. rewrite (findall_gap rule_token r_junk r_junk_skipped) by exact HN.
  change (String newline after) with (append (String newline "") after) at 2. rewrite (findall_gap rule_token r_junk r_junk_skipped _ after) by exact HN.
  replace (append "#" (append comment (String newline after))) with (append (append "#" (append comment (String newline ""))) after)
    by (rewrite !str_app_assoc; reflexivity).
  rewrite (findall_token rule_token r_tok r_follows r_tok_found r_tok_nonempty).
  - reflexivity.
  - right. right. right. right. right. exists comment. auto.
  - split; [|split].
    + intros [[_ H] _]. discriminate H.
    + intros H. discriminate H.
    + intros H. discriminate H.
Qed.
Print Assumptions C78_comment_lines_can_be_inserted.

Example C78_example :
  let text := append "p('a')." (String newline "") in
  r_laid_out ["p"; "("; in_quotes quote1 "a"; ")"; "."] "p('a')." /\
  parse_rules 200 (append "p( # one" (String newline (append "'a') # it's" (String newline ".")))) = parse_rules 200 "p('a').".
Proof.
  split; [|vm_compute; reflexivity].
  apply (laid_token r_tok r_follows r_junk "" "p" _ "('a')."); [exact I|right; left; split; [split; [discriminate|reflexivity]|reflexivity]| |].
  { split; [|split]; [intros _ H; discriminate H|discriminate|discriminate]. }
  apply (laid_token r_tok r_follows r_junk "" "(" _ "'a')."); [exact I|left; simpl; auto 8| |].
  { split; [|split]; [intros [[_ H] _]; discriminate H|discriminate|discriminate]. }
  apply (laid_token r_tok r_follows r_junk "" (in_quotes quote1 "a") _ ")."); [exact I| | |].
  { right. right. right. right. left. exists quote1, "a". split; [simpl; auto|]. split; [|split; [discriminate|reflexivity]].
    apply wq_char; [discriminate|discriminate|constructor]. }
  { split; [|split]; [intros [[_ H] _]; discriminate H|discriminate|discriminate]. }
  apply (laid_token r_tok r_follows r_junk "" ")" _ "."); [exact I|left; simpl; auto 8| |].
  { split; [|split]; [intros [[_ H] _]; discriminate H|discriminate|discriminate]. }
  apply (laid_token r_tok r_follows r_junk "" "." _ ""); [exact I|left; simpl; auto 8| |constructor; exact I].
  { split; [|split]; [intros [[_ H] _]; discriminate H|discriminate|discriminate]. }
Qed.
(** On the last line a comment needs a newline after it: without one its words
    are read as rules. *)
Theorem C78_comment_at_the_end_refuted :
  parse_rules 200 "p('a'). # done" = Ok None /\
  parse_rules 200 "p('a'). # q('b')." = Ok (Some [mkRule [VStr "p"; VStr "a"] (VList []); mkRule [VStr "q"; VStr "b"] (VList [])]) /\
  parse_rules 200 (append "p('a'). # q('b')." (String newline "")) = Ok (Some [mkRule [VStr "p"; VStr "a"] (VList [])]).
Proof. repeat split; vm_compute; reflexivity. Qed.
Print Assumptions C78_comment_at_the_end_refuted.

(** ** C95 *)

Lemma simple_head n ts : res_ok (fun l => exists p args, l = VStr p :: args /\ valid_predicate p = true) (parse_simple_atom n ts).
Proof.
  intros x rest. destruct n as [|n]; [discriminate|]. cbn [parse_simple_atom]. destruct (next_token ts) as [[t r]|]; [|discriminate].
  destruct (is_identifier t) eqn:EI; [|discriminate]. destruct (expect "(" r) as [s|]; [|discriminate].
  destruct (parse_terms n s) as [[l q]|e|]; cbn [obind fst snd]; try discriminate. destruct (expect ")" q); [|discriminate]. intros [= <- _].
  exists t, l. split; [reflexivity|]. unfold is_identifier in EI. destruct t; [discriminate|exact EI].
Qed.
Lemma list_heads n m : forall ts l rest, parse_rule_list n m ts = Ok (l, rest) ->
  Forall (fun r => exists p args, ru_head r = VStr p :: args /\ valid_predicate p = true) l.
Proof.
  induction m as [|m IH]; intros ts l rest; [discriminate|]. cbn [parse_rule_list]. unfold parse_rule. pose proof (simple_head n ts) as HS.
  destruct (parse_simple_atom n ts) as [[[h s]|]|e|]; cbn [obind]; try discriminate; [|intros [= <- _]; constructor].
  specialize (HS h s eq_refl). cbv beta in HS.
  match goal with |- obind (obind ?x _) _ = _ -> _ => destruct x as [[[b q]|]|e|] end; cbn [obind]; try discriminate;
    [|intros [= <- _]; constructor].
  destruct (expect "." q) as [q'|]; cbn [obind]; [|intros [= <- _]; constructor].
  destruct (parse_rule_list n m q') as [[l' r']|e|] eqn:E; cbn [obind fst snd]; try discriminate. intros [= <- _]. constructor; [exact HS|apply (IH _ _ _ E)].
Qed.

(** the rules of a rule base for a predicate; none if it is not there *)
Definition rules_for (p : string) (rb : rulebase) : list rule := match rules_get p rb with Some l => l | None => [] end.
Definition has_predicate (p : string) (r : rule) : bool := match ru_head r with VStr q :: _ => String.eqb p q | _ => false end.

Lemma rules_for_add p q r rb : rules_for p (rules_add q r rb) = rules_for p rb ++ (if String.eqb p q then [r] else []).
Proof.
  unfold rules_for. induction rb as [|[k rs] rb IH]; cbn [rules_add rules_get].
  - destruct (String.eqb p q); reflexivity.
  - destruct (String.eqb_spec q k) as [->|Hn]; cbn [rules_get].
    + destruct (String.eqb_spec p k); [reflexivity|]. now rewrite List.app_nil_r.
    + destruct (String.eqb_spec p k) as [->|Hk]; [|exact IH].
      destruct (String.eqb_spec k q) as [->|]; [congruence|]. now rewrite List.app_nil_r.
Qed.

Section ImportProofs.
  Context {W : Type} (L : lens W rulebase) (HL : lens_ok L).

  Lemma insert_all l : Forall (fun r => exists p args, ru_head r = VStr p :: args /\ valid_predicate p = true) l -> forall w,
    exists w', insert_rules L l w = (Ok tt, w') /\
      (forall p, rules_for p (lget L w') = rules_for p (lget L w) ++ filter (has_predicate p) l) /\
      (exists rb, w' = lset L rb w).
  Proof.
    induction 1 as [|r l (q & args & Eh & Hv) _ IH]; intros w.
    - exists w. split; [reflexivity|]. split; [intros p; cbn; now rewrite List.app_nil_r|]. exists (lget L w). now rewrite lens_set_get.
    - set (w1 := lset L (rules_add q r (lget L w)) w). destruct (IH w1) as (w' & E & HF & (rb & Ew)). exists w'. split; [|split].
      + cbn [insert_rules]. unfold Effects.bind, insert_rule. rewrite Eh, Hv. cbn. exact E.
      + intros p. rewrite HF. unfold w1. rewrite (lens_get_set L HL), rules_for_add, <- app_assoc. f_equal. cbn [filter]. unfold has_predicate at 2. rewrite Eh.
        destruct (String.eqb p q); reflexivity.
      + exists rb. rewrite Ew. unfold w1. now rewrite (lens_set_set L HL).
  Qed.

  (** Importing a text that parses adds all its rules, after the rules that
      are there, in the order of the text; nothing else changes. *)
  Theorem C95_import_adds_all_rules :
    forall n text rules w, parse_rules n text = Ok (Some rules) ->
      exists w', import_rules L n text w = (Ok tt, w') /\
        (forall p, rules_for p (lget L w') = rules_for p (lget L w) ++ filter (has_predicate p) rules) /\
        (exists rb, w' = lset L rb w).
  Proof.
    intros n text rules w H. unfold import_rules. rewrite H. apply insert_all. revert H. unfold parse_rules.
    destruct (parse_rule_list n n (findall rule_token text)) as [[l q]|e|] eqn:E; cbn [obind fst snd]; try discriminate.
    destruct (next_token q); [discriminate|]. intros [= <-]. apply (list_heads _ _ _ _ _ E).
  Qed.

  (** Importing a text that does not parse raises, and adds nothing. *)
  Theorem C95_import_of_a_bad_text_adds_nothing :
    forall n text w, 7 * String.length text + 5 < n -> (forall rules, parse_rules n text <> Ok (Some rules)) ->
      import_rules L n text w = (Exn (Raise "Unable to parse inference"), w) \/
      import_rules L n text w = (Exn TypeErr, w).
  Proof.
    intros n text w Hn H. unfold import_rules. destruct (C94_parsing_terminates text n n Hn (le_n n)) as [HT _].
    pose proof (C94_only_unfinished_texts_raise text n) as HE.
    destruct (parse_rules n text) as [[rules|]|e|]; [destruct (H rules eq_refl)|left; reflexivity| |congruence].
    destruct (HE e eq_refl) as [-> _]. right. reflexivity.
  Qed.
End ImportProofs.
Print Assumptions C95_import_adds_all_rules.
Print Assumptions C95_import_of_a_bad_text_adds_nothing.

Definition C95_lens : lens rulebase rulebase := mkLens (fun w => w) (fun s _ => s).
Example C95_example :
  lens_ok C95_lens /\
  (let old := mkRule [VStr "p"; VStr "z"] (VList []) in
   let (r, w) := import_rules C95_lens 400 "p('a'). q(X) :- p(X). p('b')." [("p", [old])] in
   r = Ok tt /\ length (rules_for "p" w) = 3 /\ length (rules_for "q" w) = 1 /\ hd_error (rules_for "p" w) = Some old) /\
  import_rules C95_lens 400 "p('a'). q(0)." [] = (Exn (Raise "Unable to parse inference"), []) /\
  import_rules C95_lens 400 "p('a'). q(" [] = (Exn TypeErr, []).
Proof. split; [split; reflexivity|]. vm_compute. repeat split. Qed.
