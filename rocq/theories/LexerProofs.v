(** * Texts made of tokens and gaps are split into these tokens *)

From Coq Require Import ZArith String Ascii List Bool Arith Lia.
From Verif Require Import Py InferenceModule Earley Lexer.
Import ListNotations.
Local Open Scope string_scope.
Local Open Scope list_scope.

Lemma str_app_assoc a b c : append (append a b) c = append a (append b c).
Proof. induction a as [|x a IH]; simpl; congruence. Qed.
Lemma str_app_nil a : append a "" = a.
Proof. induction a as [|x a IH]; simpl; congruence. Qed.
Lemma str_app_length a b : String.length (append a b) = String.length a + String.length b.
Proof. induction a as [|x a IH]; simpl; congruence. Qed.
Lemma take_app t s : take (String.length t) (append t s) = t.
Proof. induction t as [|c t IH]; simpl; [destruct s; reflexivity|congruence]. Qed.
Lemma drop_app t s : drop (String.length t) (append t s) = s.
Proof. induction t as [|c t IH]; simpl; [reflexivity|congruence]. Qed.

Section Layout.
  Variable token : string -> nat.
  (** the tokens, what may follow a token, and the characters between them *)
  Variable tok : string -> Prop.
  Variable follows : string -> string -> Prop.
  Variable junk : ascii -> Prop.
  Hypothesis tok_found : forall t s, tok t -> follows t s -> token (append t s) = String.length t.
  Hypothesis tok_nonempty : forall t, tok t -> t <> "".
  Hypothesis junk_skipped : forall c s, junk c -> token (String c s) = 0.

  Fixpoint gap (g : string) : Prop := match g with EmptyString => True | String c g' => junk c /\ gap g' end.

  (** [laid_out ts text]: [text] consists of the tokens [ts], with gaps *)
  Inductive laid_out : list string -> string -> Prop :=
  | laid_end g : gap g -> laid_out [] g
  | laid_token g t ts s : gap g -> tok t -> follows t s -> laid_out ts s -> laid_out (t :: ts) (append g (append t s)).

  Lemma find_skip t s : find_from token (String.length t) (append t s) = find_from token 0 s.
  Proof. induction t as [|c t IH]; [reflexivity|exact IH]. Qed.
  Lemma findall_token t s : tok t -> follows t s -> findall token (append t s) = t :: findall token s.
  Proof.
    intros Ht Hf. pose proof (tok_found t s Ht Hf) as E. destruct t as [|c t]; [destruct (tok_nonempty _ Ht eq_refl)|].
    unfold findall. cbn [append find_from]. cbn [append] in E. rewrite E. cbn [String.length]. f_equal.
    - change (String c (append t s)) with (append (String c t) s). apply (take_app (String c t) s).
    - apply find_skip.
  Qed.
  Lemma findall_gap g s : gap g -> findall token (append g s) = findall token s.
  Proof.
    induction g as [|c g IH]; intros H; [reflexivity|]. destruct H as [Hc Hg]. unfold findall in *. cbn [append find_from].
    rewrite junk_skipped by exact Hc. auto.
  Qed.
  Lemma findall_laid_out ts s : laid_out ts s -> findall token s = ts.
  Proof.
    induction 1 as [g Hg|g t ts s Hg Ht Hf _ IH].
    - rewrite <- (str_app_nil g), findall_gap by exact Hg. reflexivity.
    - rewrite findall_gap, findall_token, IH by assumption. reflexivity.
  Qed.
End Layout.

(** ** quoted text *)

(** [well_quoted q b]: what may be between two [q]: every [q] has a backslash
    before it, and there is no backslash at the end *)
Inductive well_quoted (q : ascii) : string -> Prop :=
| wq_nil : well_quoted q ""
| wq_escaped b : well_quoted q b -> well_quoted q (String backslash (String q b))
| wq_backslash c b : c <> q -> well_quoted q (String c b) -> well_quoted q (String backslash (String c b))
| wq_char c b : c <> q -> c <> backslash -> well_quoted q b -> well_quoted q (String c b).

Lemma quoted_rest_found q b s : q <> backslash -> well_quoted q b ->
  quoted_rest q (append b (String q s)) = Some (Datatypes.S (String.length b)).
Proof.
  intros Hq. assert (Hqb : Ascii.eqb backslash q = false) by (apply Ascii.eqb_neq; congruence).
  induction 1 as [|b _ IH|c b Hc _ IH|c b Hc Hb _ IH].
  - simpl. now rewrite Ascii.eqb_refl.
  - cbn [append quoted_rest]. rewrite Hqb, !Ascii.eqb_refl, IH. reflexivity.
  - cbn [append] in *. cbn [quoted_rest]. rewrite Hqb. change (Ascii.eqb backslash backslash) with true. cbn match.
    apply Ascii.eqb_neq in Hc. rewrite Hc. cbn [quoted_rest] in IH. rewrite Hc in IH. rewrite IH. reflexivity.
  - cbn [append quoted_rest]. apply Ascii.eqb_neq in Hc, Hb. rewrite Hc, Hb, IH. reflexivity.
Qed.
Lemma quoted_found q b s : q <> backslash -> well_quoted q b -> b <> "" ->
  quoted q (append (String q (append b (String q ""))) s) = String.length (String q (append b (String q ""))).
Proof.
  intros Hq Hw Hb. cbn [append]. rewrite str_app_assoc. cbn [append]. destruct b as [|d b]; [congruence|]. cbn [append quoted].
  assert (Hd : Ascii.eqb d q = false).
  { apply Ascii.eqb_neq. inversion Hw; subst; congruence. }
  rewrite Ascii.eqb_refl, Hd. cbn [andb negb]. change (String d (append b (String q s))) with (append (String d b) (String q s)).
  rewrite (quoted_rest_found q (String d b) s Hq Hw). cbn [String.length]. rewrite str_app_length. cbn [String.length]. lia.
Qed.

(** writing any text between quotes *)
Fixpoint escape (q : ascii) (s : string) : string :=
  match s with
  | EmptyString => EmptyString
  | String c s' => if Ascii.eqb c q then String backslash (String q (escape q s')) else String c (escape q s')
  end.
Fixpoint ends_with (c : ascii) (s : string) : bool :=
  match s with
  | EmptyString => false
  | String d EmptyString => Ascii.eqb c d
  | String _ s' => ends_with c s'
  end.

Lemma escape_head q s : q <> backslash -> s <> "" -> exists c b, escape q s = String c b /\ c <> q.
Proof.
  intros Hq Hs. destruct s as [|c s]; [congruence|]. simpl. destruct (Ascii.eqb_spec c q); [exists backslash|exists c]; eauto.
Qed.
Lemma escape_quoted q s : q <> backslash -> ends_with backslash s = false -> well_quoted q (escape q s).
Proof.
  intros Hq. induction s as [|c s IH]; intros He; [constructor|]. cbn [escape]. destruct (Ascii.eqb_spec c q) as [->|Hc].
  - constructor. apply IH. destruct s; [reflexivity|exact He].
  - destruct (Ascii.eqb_spec c backslash) as [->|Hb].
    + destruct s as [|d s]; [discriminate|]. specialize (IH He).
      destruct (escape_head q (String d s) Hq ltac:(discriminate)) as (e & b & E & Hne). rewrite E in *. constructor; assumption.
    + constructor; [exact Hc|exact Hb|]. apply IH. destruct s; [reflexivity|exact He].
Qed.
Lemma unescape_escape q s : q <> backslash -> unescape q (escape q s) = s.
Proof.
  intros Hq. induction s as [|c s IH]; [reflexivity|]. cbn [escape]. destruct (Ascii.eqb_spec c q) as [->|Hc].
  - cbn [unescape]. change (Ascii.eqb backslash backslash) with true. cbn match. rewrite Ascii.eqb_refl. now rewrite IH.
  - cbn [unescape]. destruct (Ascii.eqb_spec c backslash) as [->|Hb]; [|now rewrite IH].
    destruct s as [|d s]; [reflexivity|].
    destruct (escape_head q (String d s) Hq ltac:(discriminate)) as (e & b & E & Hne). rewrite E in *.
    apply Ascii.eqb_neq in Hne. rewrite Hne. now rewrite IH.
Qed.
Lemma escape_nonempty q s : s <> "" -> escape q s <> "".
Proof. destruct s as [|c s]; [congruence|]. intros _. simpl. destruct (Ascii.eqb c q); discriminate. Qed.

(** a text between quotes *)
Definition in_quotes (q : ascii) (s : string) : string := String q (append (escape q s) (String q "")).
Lemma inside_in_quotes q s : inside (in_quotes q s) = escape q s.
Proof.
  unfold inside, in_quotes. cbn [String.length drop]. rewrite str_app_length. cbn [String.length].
  replace (Datatypes.S (String.length (escape q s) + 1) - 2) with (String.length (escape q s)) by lia. apply take_app.
Qed.

(** ** words *)
Definition starts_word (s : string) : Prop := match s with String c _ => word_char c = true | EmptyString => False end.
Lemma word_run_found w s : all_word w = true -> ~ starts_word s -> word_run (append w s) = String.length w.
Proof.
  intros Hw Hs. induction w as [|c w IH]; cbn [append word_run String.length].
  - destruct s as [|c s]; [reflexivity|]. simpl in Hs. destruct (word_char c) eqn:E; [congruence|]. simpl. now rewrite E.
  - cbn [all_word] in Hw. apply andb_true_iff in Hw as [Hc Hw]. rewrite Hc, IH; auto.
Qed.

(** no word character is a mark *)
Lemma word_not c d : word_char c = true -> word_char d = false -> Ascii.eqb c d = false.
Proof. intros H1 H2. apply Ascii.eqb_neq. intros ->. congruence. Qed.

(** ** the tokens of grammar rules *)
Definition g_marks : list string := ["?"; ","; "->"; "("; ")"; "+"; "~"].
Definition g_quotes : list ascii := [slash; quote1; quote2].
Definition is_word (w : string) : Prop := w <> "" /\ all_word w = true.
Definition g_tok (t : string) : Prop :=
  In t g_marks \/ is_word t \/ exists q b, In q g_quotes /\ well_quoted q b /\ b <> "" /\ t = String q (append b (String q "")).
Definition g_follows (t s : string) : Prop := is_word t -> ~ starts_word s.
(** neither a word character nor the first character of a mark or of quoted
    text *)
Definition g_junk (c : ascii) : Prop := word_char c = false /\ ~ In c ["?"; ","; "-"; "("; ")"; "+"; "~"; slash; quote1; quote2]%char.

Lemma g_tok_nonempty t : g_tok t -> t <> "".
Proof.
  intros [H|[[H _]|(q & b & _ & _ & _ & ->)]]; [|exact H|discriminate].
  intros ->. simpl in H. intuition discriminate.
Qed.
Lemma g_junk_skipped c s : g_junk c -> grammar_token (String c s) = 0.
Proof.
  intros [Hw Hn]. unfold grammar_token, one_of, existsb.
  assert (H : forall d, In d ["?"; ","; "-"; "("; ")"; "+"; "~"; slash; quote1; quote2]%char -> Ascii.eqb c d = false).
  { intros d Hd. apply Ascii.eqb_neq. congruence. }
  rewrite !H by (simpl; auto 12). now rewrite Hw.
Qed.
Lemma g_tok_found t s : g_tok t -> g_follows t s -> grammar_token (append t s) = String.length t.
Proof.
  intros [H|[[H1 H2]|(q & b & Hq & Hw & Hb & ->)]] Hf.
  - simpl in H. repeat (destruct H as [<-|H]; [reflexivity|]). destruct H.
  - destruct t as [|c t]; [congruence|]. cbn [append]. unfold grammar_token.
    pose proof H2 as H3. cbn [all_word] in H3. apply andb_true_iff in H3 as [Hc _]. unfold one_of, existsb.
    rewrite !(word_not c) by (exact Hc || reflexivity). cbn [orb andb]. rewrite Hc.
    change (String c (append t s)) with (append (String c t) s). apply word_run_found; [exact H2|].
    apply Hf. split; assumption.
  - assert (Hqb : q <> backslash) by (intros ->; simpl in Hq; intuition discriminate).
    pose proof (quoted_found q b s Hqb Hw Hb) as E. revert E. cbn [append]. unfold grammar_token.
    simpl in Hq. destruct Hq as [<-|[<-|[<-|[]]]]; intros E; exact E.
Qed.

Definition g_laid_out := laid_out g_tok g_follows g_junk.
Lemma g_findall ts s : g_laid_out ts s -> findall grammar_token s = ts.
Proof. apply findall_laid_out; [exact g_tok_found|exact g_tok_nonempty|exact g_junk_skipped]. Qed.
