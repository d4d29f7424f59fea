(** * Tables that are written by [csv.writer] *)

From Coq Require Import String Ascii List Bool Arith Lia.
From Verif Require Import Py Effects SimpleDataSource Csv CsvSpec LexerProofs CsvProofs.
Import ListNotations.
Local Open Scope string_scope.
Local Open Scope list_scope.

(** Python's [csv.writer] with its defaults: a field is quoted if it holds a
    comma, a quote, or a character of a line end, or if it is empty and the
    only one of its row. *)
Fixpoint needs_quotes (s : string) : bool :=
  match s with
  | EmptyString => false
  | String c r => existsb (Ascii.eqb c) [ascii_of_nat 44; ascii_of_nat 34; cr; lf] || needs_quotes r
  end.
Fixpoint double_quotes (s : string) : string :=
  match s with
  | EmptyString => EmptyString
  | String c r => if Ascii.eqb c (ascii_of_nat 34) then (QUOTE ++ QUOTE ++ double_quotes r)%string else String c (double_quotes r)
  end.
Definition quoted_field (s : string) : string := (QUOTE ++ double_quotes s ++ QUOTE)%string.
Definition write_field (s : string) : string := if needs_quotes s then quoted_field s else s.
Definition write_fields (vs : list string) : string :=
  match vs with
  | [""] => quoted_field ""
  | _ => String.concat COMMA (map write_field vs)
  end.
Fixpoint csv_write (rows : list (list string)) : string :=
  match rows with
  | [] => ""
  | vs :: rest => (write_fields vs ++ str cr ++ NL ++ csv_write rest)%string
  end.

Lemma starts_app a b : a <> "" -> starts (append a b) NL -> starts a NL.
Proof. destruct a as [|c a]; [congruence|]. intros _ (r & H). injection H as -> _. now exists a. Qed.
Lemma newlines_app a a' b b' : newlines a a' -> newlines b b' -> ~ starts b NL -> newlines (append a b) (append a' b').
Proof.
  intros H Hb Hn. induction H as [|s t H IH|s t Hs H IH|c s t Hc H IH]; auto.
  - exact (nl_windows _ _ IH).
  - apply (nl_mac (append s b) (append t b')); auto. intros Hx. destruct s as [|d s]; [contradiction|]. apply Hs. apply (starts_app (String d s) b); [discriminate|exact Hx].
  - exact (nl_other c _ _ Hc IH).
Qed.

Lemma newlines_starts_lf s t : newlines s t -> starts s NL -> starts t NL.
Proof. intros H (r & ->). inversion H; subst; [exists t0; reflexivity]. Qed.

Lemma newlines_double v v' : newlines v v' -> newlines (double_quotes v) (double_quotes v').
Proof.
  induction 1 as [|s t H IH|s t Hs H IH|c s t Hc H IH].
  - constructor.
  - exact (nl_windows _ _ IH).
  - change (double_quotes (str cr ++ s)) with (str cr ++ double_quotes s)%string. change (double_quotes (NL ++ t)) with (NL ++ double_quotes t)%string.
    apply nl_mac; auto. intros (r & Hr). destruct s as [|d s]; [discriminate|]. cbn [double_quotes] in Hr.
    destruct (Ascii.eqb d (ascii_of_nat 34)); injection Hr as E _; [discriminate E|]. apply Hs. subst d. now exists s.
  - cbn [append str double_quotes]. destruct (Ascii.eqb_spec c (ascii_of_nat 34)) as [->|Hq].
    + apply (nl_other (ascii_of_nat 34) (String (ascii_of_nat 34) (double_quotes s)) (String (ascii_of_nat 34) (double_quotes t))); [discriminate|].
      apply (nl_other (ascii_of_nat 34)); [discriminate|exact IH].
    + apply (nl_other c); auto.
Qed.
Lemma doubled_double v : doubled v (double_quotes v).
Proof.
  induction v as [|c v IH]; [constructor|]. cbn [double_quotes]. destruct (Ascii.eqb_spec c (ascii_of_nat 34)) as [->|Hc].
  - exact (d_quote _ _ IH).
  - apply (d_other c); auto. intros H. injection H as H. now apply Hc.
Qed.
Lemma newlines_quote : newlines QUOTE QUOTE.
Proof. apply (nl_other (ascii_of_nat 34) "" ""); [discriminate|constructor]. Qed.
Lemma not_nl c s : c <> lf -> ~ starts (String c s) NL.
Proof. intros H (r & E). injection E as E _. now apply H. Qed.

Lemma quoted_newlines v v' : newlines v v' -> newlines (quoted_field v) (quoted_field v').
Proof.
  intros H. unfold quoted_field. apply (nl_other (ascii_of_nat 34)); [discriminate|].
  apply newlines_app; [now apply newlines_double|apply newlines_quote|]. now apply not_nl.
Qed.
Lemma outside_nil : outside "".
Proof. split; [apply has_nil|split; [apply has_nil|]]. intros (r & H). discriminate. Qed.
Lemma quoted_cell v : cell (quoted_field v) v.
Proof.
  unfold quoted_field. pose proof (cell_quoted v (double_quotes v) "" (doubled_double v) outside_nil) as H.
  rewrite !str_app_nil in H. exact H.
Qed.

Lemma needs_spec s : needs_quotes s = false ->
  bare s /\ no_cr s /\ ~ starts s QUOTE /\ ~ starts s NL.
Proof.
  induction s as [|c s IH]; simpl.
  - intros _. repeat split; auto; intros (r & H); discriminate.
  - change (Ascii.eqb c (ascii_of_nat 44) || (Ascii.eqb c (ascii_of_nat 34) || (Ascii.eqb c cr || (Ascii.eqb c lf || false))) || needs_quotes s = false -> 
      ((c <> comma /\ c <> LF) /\ bare s) /\ (c <> CR /\ no_cr s) /\ ~ starts (String c s) QUOTE /\ ~ starts (String c s) NL).
    rewrite !orb_false_iff, !Ascii.eqb_neq. intros ((A & B & C & D & _) & E).
    destruct (IH E) as (I1 & I2 & _). repeat split; auto.
    + intros (r & F). injection F. intros. congruence.
    + now apply not_nl.
Qed.
Lemma newlines_same s : no_cr s -> newlines s s.
Proof. induction s as [|c s IH]; intros H; [constructor|]. destruct H. apply (nl_other c); auto. Qed.
Lemma same_newlines s t : no_cr s -> newlines s t -> t = s.
Proof. intros H1 H2. apply newlines_universal in H2. rewrite H2. symmetry. apply newlines_universal. now apply newlines_same. Qed.

(** [shows t t' v]: the text [t] of a field, read as [t'], says [v] *)
Definition shows (t t' v : string) : Prop := newlines t t' /\ cell t' v /\ ~ starts t NL.
Lemma write_shows v v' : newlines v v' -> exists t', shows (write_field v) t' v'.
Proof.
  intros H. unfold write_field. destruct (needs_quotes v) eqn:E.
  - exists (quoted_field v'). split; [now apply quoted_newlines|]. split; [apply quoted_cell|]. now apply not_nl.
  - apply needs_spec in E. destruct E as (H1 & H2 & H3 & H4). apply (same_newlines v) in H; auto. subst v'. exists v.
    split; [now apply newlines_same|]. split; auto. constructor. apply bare_has in H1. destruct H1. split; auto.
Qed.

Lemma concat_shows vs vs' : vs <> [] -> Forall2 newlines vs vs' ->
  exists t', newlines (String.concat COMMA (map write_field vs)) t' /\ record t' vs' /\ ~ starts (String.concat COMMA (map write_field vs)) NL.
Proof.
  intros Hne H. induction H as [|v v' vs vs' Hv H IH]; [congruence|].
  destruct (write_shows v v' Hv) as (t & H1 & H2 & H3). destruct vs as [|w vs].
  - inversion H; subst. exists t. split; [exact H1|]. split; [now constructor|exact H3].
  - destruct IH as (t2 & I1 & I2 & I3); [discriminate|].
    exists (t ++ COMMA ++ t2)%string. cbn [map String.concat] in *. split; [|split].
    + apply newlines_app; auto; [|now apply not_nl]. apply (nl_other (ascii_of_nat 44)); [discriminate|exact I1].
    + now constructor.
    + intros Hx. destruct (write_field v) as [|c u]; [now apply not_nl in Hx|]. apply H3. apply (starts_app (String c u) _) in Hx; [exact Hx|discriminate].
Qed.

(** what the text of one row says *)
Lemma fields_shows vs vs' : vs <> [] -> Forall2 newlines vs vs' ->
  exists t', newlines (write_fields vs) t' /\ record t' vs' /\ ~ starts (write_fields vs) NL /\ t' <> "".
Proof.
  intros Hne H. destruct (concat_shows vs vs' Hne H) as (t & H1 & H2 & H3).
  destruct H as [|v v' vs vs' Hv H]; [congruence|]. destruct H as [|w w' vs vs' Hw H].
  - destruct v as [|c v].
    + inversion Hv; subst. exists (quoted_field ""). split; [apply quoted_newlines; constructor|].
      split; [constructor; apply quoted_cell|]. split; [now apply not_nl|discriminate].
    + exists t. unfold write_fields. split; [exact H1|]. split; [exact H2|]. split; [exact H3|].
      intros ->. apply newlines_universal in H1. cbn [map String.concat] in H1. unfold write_field in H1.
      destruct (needs_quotes (String c v)); [discriminate|]. cbn [universal] in H1. destruct (Ascii.eqb c CR); discriminate.
  - exists t. assert (E : write_fields (v :: w :: vs) = String.concat COMMA (map write_field (v :: w :: vs))) by (destruct v; reflexivity).
    rewrite E. split; [exact H1|]. split; [exact H2|]. split; [exact H3|].
    inversion H2 as [|a x ts xs Ha Hr]; subst. destruct a; discriminate.
Qed.

Lemma written_table rows rows' tail tail' trows :
  Forall2 (Forall2 newlines) rows rows' -> newlines tail tail' -> table tail' trows ->
  exists s, newlines (csv_write rows ++ tail)%string s /\ table s (rows' ++ trows).
Proof.
  intros H Ht Htab. induction H as [|vs vs' rows rows' Hv H IH].
  - exists tail'. auto.
  - destruct IH as (s & H1 & H2). cbn [csv_write]. destruct vs as [|v vs].
    + inversion Hv; subst. exists (NL ++ s)%string. split; [exact (nl_windows _ _ H1)|]. cbn [app]. now constructor.
    + destruct (fields_shows (v :: vs) vs') as (t & I1 & I2 & I3 & I4); [discriminate|exact Hv|].
      exists (t ++ NL ++ s)%string. split.
      * rewrite !str_app_assoc. apply newlines_app; auto; [exact (nl_windows _ _ H1)|]. now apply not_nl.
      * cbn [app]. now constructor.
Qed.
