(** * Proofs about [Csv.v] *)

From Coq Require Import String Ascii List Bool Arith Lia.
From Verif Require Import Py Effects SimpleDataSource Csv CsvSpec LexerProofs.
Import ListNotations.
Local Open Scope string_scope.
Local Open Scope list_scope.

(** ** Line ends *)

Lemma universal_newlines : forall n s, String.length s <= n -> newlines s (universal s).
Proof.
  induction n as [|n IH]; intros [|c s] Hn; simpl in Hn; try lia; try constructor.
  cbn [universal]. destruct (Ascii.eqb_spec c CR) as [->|Hc].
  - destruct s as [|d s].
    + apply (nl_mac "" ""); [|constructor]. intros (r & Hr). discriminate.
    + destruct (Ascii.eqb_spec d LF) as [->|Hd].
      * apply nl_windows. apply IH. simpl in Hn. lia.
      * apply (nl_mac (String d s)); [|apply IH; simpl in *; lia]. intros (r & Hr). injection Hr as H1 H2. now apply Hd.
  - apply (nl_other c s); auto. apply IH. lia.
Qed.
Lemma newlines_universal s t : newlines s t -> t = universal s.
Proof.
  induction 1 as [|s t H IH|s t Hs H IH|c s t Hc H IH]; auto.
  - subst t. reflexivity.
  - subst t. cbn. destruct s as [|d s]; auto. destruct (Ascii.eqb_spec d LF) as [->|]; auto. exfalso. apply Hs. now exists s.
  - subst t. cbn [append str universal]. destruct (Ascii.eqb_spec c CR) as [->|]; auto. now contradiction Hc.
Qed.

Fixpoint no_cr (s : string) : Prop := match s with EmptyString => True | String c r => c <> CR /\ no_cr r end.
Lemma universal_no_cr : forall n s, String.length s <= n -> no_cr (universal s).
Proof.
  induction n as [|n IH]; intros [|c s] Hn; simpl in Hn; try lia; try exact I.
  cbn [universal]. destruct (Ascii.eqb_spec c CR) as [->|Hc].
  - destruct s as [|d s]; [split; [discriminate|exact I]|].
    destruct (Ascii.eqb_spec d LF) as [->|Hd]; (split; [discriminate|]); apply IH; simpl in *; lia.
  - split; auto. apply IH. lia.
Qed.
Lemma no_cr_app a : forall b, no_cr (append a b) <-> no_cr a /\ no_cr b.
Proof. induction a as [|c a IH]; intros b; simpl; [tauto|]. rewrite IH. tauto. Qed.

(** ** Texts *)

Lemma has_cons c s d : has (String c s) d <-> c = d \/ has s d.
Proof.
  split.
  - intros ([|a0 a] & b & H); injection H as -> H; auto. right. now exists a, b.
  - intros [->|(a & b & ->)]; [now exists "", s|now exists (String c a), b].
Qed.
Lemma has_nil d : ~ has "" d.
Proof. intros ([|? ?] & b & H); discriminate. Qed.

(** neither a comma nor a line end *)
Fixpoint bare (s : string) : Prop :=
  match s with EmptyString => True | String c r => (c <> comma /\ c <> LF) /\ bare r end.
Lemma bare_has s : bare s <-> ~ has s lf /\ ~ has s (ascii_of_nat 44).
Proof.
  induction s as [|c s IH]; simpl.
  - split; auto. intros _. split; apply has_nil.
  - rewrite !has_cons, IH. change lf with LF. change (ascii_of_nat 44) with comma. tauto.
Qed.
Lemma starts_quote c s : starts (String c s) QUOTE <-> c = quote.
Proof. split; [intros (r & H); now injection H|intros ->; now exists s]. Qed.

Lemma bare_prefix s : exists a b, s = append a b /\ bare a /\ (b = "" \/ (exists r, b = String comma r) \/ (exists r, b = String LF r)).
Proof.
  induction s as [|c s (a & b & -> & Ha & Hb)]; [exists "", ""; simpl; auto|].
  destruct (Ascii.eqb_spec c comma) as [->|H1]; [exists "", (String comma (append a b)); simpl; split; [reflexivity|]; eauto 8|].
  destruct (Ascii.eqb_spec c LF) as [->|H2]; [exists "", (String LF (append a b)); simpl; split; [reflexivity|]; eauto 8|].
  exists (String c a), b. simpl. auto.
Qed.
Lemma doubled_prefix : forall n s, String.length s <= n ->
  (exists v, doubled v s) \/ (exists v t r, doubled v t /\ s = append t (String quote r) /\ ~ starts r QUOTE).
Proof.
  induction n as [|n IH]; intros [|c s] Hn; simpl in Hn; try lia; try (left; exists ""; constructor).
  destruct (Ascii.eqb_spec c quote) as [->|Hc].
  - destruct s as [|d s].
    + right. exists "", "", "". split; [constructor|]. split; auto. intros (r & Hr). discriminate.
    + destruct (Ascii.eqb_spec d quote) as [->|Hd].
      * simpl in Hn. destruct (IH s) as [(v & Hv)|(v & t & r & Hv & -> & Hr)]; [lia| |].
        -- left. exists (String quote v). now apply d_quote.
        -- right. exists (String quote v), (String quote (String quote t)), r. split; [now apply d_quote|auto].
      * right. exists "", "", (String d s). split; [constructor|]. split; auto. now rewrite starts_quote.
  - assert (Hq : str c <> QUOTE) by (intros H; injection H; intros; now apply Hc).
    destruct (IH s) as [(v & Hv)|(v & t & r & Hv & -> & Hr)]; [lia| |].
    + left. exists (String c v). now apply (d_other c).
    + right. exists (String c v), (String c t), r. split; [now apply (d_other c)|auto].
Qed.

(** every text begins with a cell, or is an unclosed one *)
Definition stops (b : string) : Prop := b = "" \/ (exists r, b = String comma r) \/ (exists r, b = String LF r).
Lemma first_cell s :
  (exists t v b, cell t v /\ s = append t b /\ stops b) \/ (exists v, unclosed s [v]).
Proof.
  destruct s as [|c s].
  - left. exists "", "", "". repeat split; [|now left]. constructor. split; [apply has_nil|split; [apply has_nil|]]. intros (r & H); discriminate.
  - destruct (Ascii.eqb_spec c quote) as [->|Hc].
    + destruct (doubled_prefix (String.length s) s (le_n _)) as [(v & Hv)|(v & t & r & Hv & -> & Hr)].
      * right. exists v. now apply (unclosed_one v s).
      * left. destruct (bare_prefix r) as (a & b & -> & Ha & Hb).
        exists (QUOTE ++ t ++ QUOTE ++ a)%string, (append v a), b. split; [|split; [|exact Hb]].
        -- constructor; auto. apply bare_has in Ha. destruct Ha. split; [|split]; auto. intros (x & Hx). apply Hr. subst a. exists (append x b). reflexivity.
        -- cbn. now rewrite !str_app_assoc.
    + left. destruct (bare_prefix (String c s)) as (a & b & H & Ha & Hb). exists a, a, b. split; [|split; auto].
      constructor. apply bare_has in Ha. destruct Ha. split; [|split]; auto. intros (x & ->). injection H as Hx _. now apply Hc.
Qed.

Lemma table_exists : forall n s, String.length s <= n -> exists rows, table s rows.
Proof.
  assert (Hcell : forall t v, cell t v -> ~ starts t NL).
  { intros t v [s (H & _)|s t' r _ _] (x & Hx); [|discriminate]. apply H. exists "", x. exact Hx. }
  (* a whole record first *)
  assert (Hrec : forall n s, String.length s <= n ->
    (exists t vs b, record t vs /\ s = append t b /\ (b = "" \/ exists r, b = String LF r)) \/ (exists vs, unclosed s vs)).
  { induction n as [|n IH]; intros s Hn.
    - destruct s; [|simpl in Hn; lia]. left. exists "", [""], "". split; [|auto]. do 2 constructor. split; [apply has_nil|split; [apply has_nil|]]. intros (r & H); discriminate.
    - destruct (first_cell s) as [(t & v & b & Hc & -> & [->|[(r & ->)|(r & ->)]])|(v & Hu)].
      + left. exists t, [v], "". split; [now constructor|auto].
      + rewrite str_app_length in Hn. simpl in Hn.
        destruct (IH r) as [(t' & vs & b & Hr & -> & Hb)|(vs & Hu)]; [lia| |].
        * left. exists (t ++ COMMA ++ t')%string, (v :: vs), b. split; [now constructor|split; auto].
          now rewrite !str_app_assoc.
        * right. exists (v :: vs). exact (unclosed_more t v r vs Hc Hu).
      + left. exists t, [v], (String LF r). split; [now constructor|split; eauto].
      + right. now exists [v]. }
  induction n as [|n IH]; intros s Hn.
  - destruct s; [|simpl in Hn; lia]. exists []. constructor.
  - destruct s as [|c s]; [exists []; constructor|].
    destruct (Ascii.eqb_spec c LF) as [->|Hc].
    + simpl in Hn. destruct (IH s) as (rows & Hr); [lia|]. exists ([] :: rows). exact (table_blank s rows Hr).
    + destruct (Hrec _ (String c s) (le_n _)) as [(t & vs & b & Hr & H & [->|(r & ->)])|(vs & Hu)].
      * rewrite str_app_nil in H. subst t. exists [vs]. apply table_last; [exact Hr|discriminate].
      * assert (Ht : t <> "") by (intros ->; injection H as H1 _; now apply Hc).
        assert (Hl : String.length r <= n).
        { assert (Hx : String.length (String c s) = String.length t + S (String.length r)) by (rewrite H, str_app_length; reflexivity). lia. }
        destruct (IH r Hl) as (rows & Hrows). exists (vs :: rows). rewrite H. exact (table_row t vs r rows Hr Ht Hrows).
      * exists [vs]. now apply table_unclosed.
Qed.

(** ** The reader, character by character *)

Section Reading.
  Variable limit : nat.

  Definition eof (p : reader) : list (list string) * outcome unit :=
    (if negb (String.eqb (field p) "") || is_state (st p) IN_QUOTED_FIELD then [fields p ++ [field p]] else [], Ok tt).
  (** the end of a line, then [k] *)
  Definition eol (p : reader) (k : reader -> list (list string) * outcome unit) : list (list string) * outcome unit :=
    match process_char limit None p with
    | Ok p' => if is_state (st p') START_RECORD
               then let (rows, o) := k parse_reset in (fields p' :: rows, o)
               else k p'
    | Exn e => ([], Exn e)
    | OutOfFuel => ([], OutOfFuel)
    end.
  Fixpoint stream (s : string) (p : reader) (fresh : bool) : list (list string) * outcome unit :=
    match s with
    | EmptyString => if fresh then eof p else eol p eof
    | String c rest =>
        match process_char limit (Some c) p with
        | Ok p' => if Ascii.eqb c LF then eol p' (fun q => stream rest q true) else stream rest p' false
        | Exn e => ([], Exn e)
        | OutOfFuel => ([], OutOfFuel)
        end
    end.

  Lemma stream_rows s : forall p,
    stream s p true = read_rows limit (file_lines s) p /\
    stream s p false = read_rows limit (match s with EmptyString => [""] | _ => file_lines s end) p.
  Proof.
    induction s as [|c s IH]; intros p.
    - split; reflexivity.
    - assert (H : stream (String c s) p true = read_rows limit (file_lines (String c s)) p).
      { cbn [stream file_lines]. destruct (Ascii.eqb_spec c LF) as [->|Hc].
        - cbn [read_rows process_line]. destruct (process_char limit (Some LF) p) as [p'| |]; auto.
          unfold eol. destruct (process_char limit None p') as [q| |]; auto.
          destruct (is_state (st q) START_RECORD); [now rewrite (proj1 (IH _))|apply IH].
        - destruct (process_char limit (Some c) p) as [p'| |] eqn:E.
          + rewrite (proj2 (IH p')). destruct s as [|d s].
            * cbn [file_lines read_rows process_line]. rewrite E. reflexivity.
            * destruct (file_lines (String d s)) as [|l ls] eqn:El.
              { exfalso. cbn [file_lines] in El. destruct (Ascii.eqb d LF); [discriminate|]. destruct (file_lines s); discriminate. }
              cbn [read_rows process_line]. rewrite E. reflexivity.
          + destruct (file_lines s); cbn [read_rows process_line]; rewrite E; reflexivity.
          + destruct (file_lines s); cbn [read_rows process_line]; rewrite E; reflexivity. }
      split; [exact H|]. rewrite <- H. reflexivity.
  Qed.

  Definition short (s : string) : bool := Nat.leb (String.length s) limit.
  Definition failed : list (list string) * outcome unit := ([], Exn too_large).

  Lemma newline_spec a : newline a = false <-> a <> LF /\ a <> CR.
  Proof. unfold newline. rewrite orb_false_iff, !Ascii.eqb_neq. tauto. Qed.

  Lemma short_add a c : short (append a (str c)) = negb (Nat.leb limit (String.length a)).
  Proof.
    unfold short. rewrite str_app_length. simpl.
    destruct (Nat.leb_spec limit (String.length a)), (Nat.leb_spec (String.length a + 1) limit); auto; lia.
  Qed.
  Lemma short_app a b : short (append a b) = true -> short a = true.
  Proof. unfold short. rewrite str_app_length, !Nat.leb_le. lia. Qed.
  Lemma long_app a b : short a = false -> short (append a b) = false.
  Proof. intros H. destruct (short (append a b)) eqn:E; auto. apply short_app in E. congruence. Qed.

  (** text that goes on with a cell *)
  Lemma stream_in_field s : forall rest fs v fresh, bare s -> no_cr s -> short v = true -> s <> "" ->
    stream (append s rest) (mkReader fs v IN_FIELD) fresh
    = if short (append v s) then stream rest (mkReader fs (append v s) IN_FIELD) false else failed.
  Proof.
    induction s as [|c s IH]; intros rest fs v fresh Hb Hn Hv Hs; [congruence|]. destruct Hb as [[H1 H2] Hb], Hn as [Hcr Hn].
    cbn [append stream]. unfold process_char. cbn [st ends].
    replace (newline c) with false by (symmetry; apply newline_spec; auto).
    destruct (Ascii.eqb_spec c comma); [congruence|]. unfold add_char. cbn [field fields].
    replace (append v (String c s)) with (append (append v (str c)) s) by (rewrite str_app_assoc; reflexivity).
    pose proof (short_add v c) as Ha.
    destruct (Nat.leb limit (String.length v)).
    - cbn [negb] in Ha. now rewrite (long_app _ s Ha).
    - destruct (Ascii.eqb_spec c LF); [congruence|]. destruct s as [|d s].
      + rewrite str_app_nil. unfold str in *. rewrite Ha. reflexivity.
      + apply IH; auto. discriminate.
  Qed.

  (** inside quotes it does not matter where the lines end *)
  Lemma quoted_fresh rest fs v a b :
    stream rest (mkReader fs v IN_QUOTED_FIELD) a = stream rest (mkReader fs v IN_QUOTED_FIELD) b.
  Proof. destruct rest, a, b; reflexivity. Qed.
  Lemma stream_quoted s t : doubled s t -> forall rest fs v fresh, short v = true ->
    stream (append t rest) (mkReader fs v IN_QUOTED_FIELD) fresh
    = if short (append v s) then stream rest (mkReader fs (append v s) IN_QUOTED_FIELD) false else failed.
  Proof.
    induction 1 as [|s t H IH|c s t Hc H IH]; intros rest fs v fresh Hv.
    - rewrite str_app_nil, Hv. apply quoted_fresh.
    - cbn [append str]. cbn [stream process_char st go field fields]. unfold add_char. cbn [field fields].
      change (Ascii.eqb (ascii_of_nat 34) quote) with true. change (Ascii.eqb (ascii_of_nat 34) LF) with false. cbv iota.
      cbn [stream process_char st go field fields]. unfold add_char, go. cbn [field fields].
      change (Ascii.eqb (ascii_of_nat 34) quote) with true. change (Ascii.eqb (ascii_of_nat 34) LF) with false. cbv iota.
      replace (append v (String (ascii_of_nat 34) s)) with (append (append v QUOTE) s) by (rewrite str_app_assoc; reflexivity).
      pose proof (short_add v (ascii_of_nat 34)) as Ha.
      destruct (Nat.leb limit (String.length v)).
      + cbn [negb] in Ha. now rewrite (long_app _ s Ha).
      + now apply IH.
    - cbn [append str]. cbn [stream process_char st go field fields].
      destruct (Ascii.eqb_spec c quote) as [->|Hq]; [now contradiction Hc|]. unfold add_char. cbn [field fields].
      replace (append v (String c s)) with (append (append v (str c)) s) by (rewrite str_app_assoc; reflexivity).
      pose proof (short_add v c) as Ha.
      destruct (Nat.leb limit (String.length v)).
      + cbn [negb] in Ha. now rewrite (long_app _ s Ha).
      + destruct (Ascii.eqb c LF).
        * unfold eol. cbn [process_char st is_state]. now apply IH.
        * now apply IH.
  Qed.

  (** [closed v s]: what may follow a cell *)
  Definition closed (v : string) (s : state) : Prop :=
    s = IN_FIELD \/ s = QUOTE_IN_QUOTED_FIELD \/ (s = START_FIELD /\ v = "").

  Lemma stream_cell t v : cell t v -> forall rest fs fresh, no_cr t ->
    (short v = true -> exists s, closed v s /\
       stream (append t rest) (mkReader fs "" START_FIELD) fresh
       = stream rest (mkReader fs v s) (match t with EmptyString => fresh | _ => false end)) /\
    (short v = false -> stream (append t rest) (mkReader fs "" START_FIELD) fresh = failed).
  Proof.
    intros Hc rest fs fresh Hn.
    assert (H0 : short "" = true) by reflexivity.
    destruct Hc as [s (Hl & Hm & Hs)|s t r Hd (Hl & Hm & Hs)].
    - assert (Hb : bare s) by (apply bare_has; auto). destruct s as [|c s].
      + split; [|discriminate]. intros _. exists START_FIELD. split; [right; right; auto|reflexivity].
      + rewrite starts_quote in Hs.
        assert (E : stream (append (String c s) rest) (mkReader fs "" START_FIELD) fresh
                    = stream (append (String c s) rest) (mkReader fs "" IN_FIELD) fresh).
        { destruct Hb as [[H1 H2] _], Hn as [H3 _]. cbn [append stream]. unfold process_char, start_field. cbn [st ends].
          replace (newline c) with false by (symmetry; apply newline_spec; auto).
          destruct (Ascii.eqb_spec c quote); [contradiction|]. destruct (Ascii.eqb_spec c comma); [contradiction|]. reflexivity. }
        rewrite E, stream_in_field by (auto; discriminate). cbn [append]. split; intros Hsh; rewrite Hsh; auto.
        exists IN_FIELD. split; [now left|reflexivity].
    - assert (Hb : bare r) by (apply bare_has; auto).
      assert (Hr : no_cr r).
      { apply no_cr_app in Hn. destruct Hn as [_ Hn]. apply no_cr_app in Hn. destruct Hn as [_ Hn]. now apply no_cr_app in Hn. }
      replace (append (QUOTE ++ t ++ QUOTE ++ r)%string rest) with (String quote (append t (String quote (append r rest))))
        by (cbn [append str]; rewrite !str_app_assoc; reflexivity).
      cbn [stream process_char st]. unfold start_field. cbn [ends]. change (newline quote) with false.
      rewrite Ascii.eqb_refl. change (Ascii.eqb quote LF) with false. cbv iota. unfold go. cbn [fields field].
      rewrite (stream_quoted s t Hd) by auto. cbn [append].
      destruct (short s) eqn:Es.
      2: { split; intros Hx; auto. apply short_app in Hx. congruence. }
      cbn [stream process_char st]. rewrite Ascii.eqb_refl. change (Ascii.eqb quote LF) with false. unfold go. cbn [fields field]. cbv iota.
      destruct r as [|c r].
      + rewrite str_app_nil. split; [|congruence]. intros _. exists QUOTE_IN_QUOTED_FIELD. split; [right; now left|].
        cbn [append str]. destruct (append t _) eqn:Et; [destruct t; discriminate|]. reflexivity.
      + rewrite starts_quote in Hs.
        assert (E : stream (append (String c r) rest) (mkReader fs s QUOTE_IN_QUOTED_FIELD) false
                    = stream (append (String c r) rest) (mkReader fs s IN_FIELD) false).
        { destruct Hb as [[H1 H2] _], Hr as [H3 _]. cbn [append stream]. unfold process_char. cbn [st ends].
          replace (newline c) with false by (symmetry; apply newline_spec; auto).
          destruct (Ascii.eqb_spec c quote); [contradiction|]. destruct (Ascii.eqb_spec c comma); [contradiction|]. reflexivity. }
        rewrite E, stream_in_field by (auto; discriminate). split; intros Hsh; rewrite Hsh; auto.
        exists IN_FIELD. split; [now left|reflexivity].
  Qed.

  (** what follows the last cell of a record *)
  Lemma stream_newline rest fs v s fresh : closed v s ->
    stream (String LF rest) (mkReader fs v s) fresh
    = let (rows, o) := stream rest parse_reset true in ((fs ++ [v]) :: rows, o).
  Proof. intros [->|[->|[-> ->]]]; reflexivity. Qed.
  Lemma stream_comma rest fs v s fresh : closed v s ->
    stream (String comma rest) (mkReader fs v s) fresh = stream rest (mkReader (fs ++ [v]) "" START_FIELD) false.
  Proof. intros [->|[->|[-> ->]]]; reflexivity. Qed.
  Lemma stream_end fs v s : closed v s -> stream "" (mkReader fs v s) false = ([fs ++ [v]], Ok tt).
  Proof. intros [->|[->|[-> ->]]]; reflexivity. Qed.

  Definition then_row (vs : list string) (k : list (list string) * outcome unit) : list (list string) * outcome unit :=
    if forallb short vs then let (rows, o) := k in (vs :: rows, o) else failed.

  Lemma stream_record t vs : record t vs -> forall fs fresh, no_cr t ->
    (forall rest, stream (append t (String LF rest)) (mkReader fs "" START_FIELD) fresh
      = if forallb short vs then let (rows, o) := stream rest parse_reset true in ((fs ++ vs) :: rows, o) else failed) /\
    (t <> "" \/ fresh = false -> stream t (mkReader fs "" START_FIELD) fresh
      = if forallb short vs then ([fs ++ vs], Ok tt) else failed).
  Proof.
    induction 1 as [t v Hc|t v ts vs Hc Hr IH]; intros fs fresh Hn.
    - cbn [forallb]. rewrite andb_true_r. split.
      + intros rest. destruct (stream_cell t v Hc (String LF rest) fs fresh Hn) as [H1 H2]. destruct (short v); auto.
        destruct (H1 eq_refl) as (s & Hs & ->). now apply stream_newline.
      + intros Hne. destruct (stream_cell t v Hc "" fs fresh Hn) as [H1 H2]. rewrite str_app_nil in H1, H2. destruct (short v); auto.
        destruct (H1 eq_refl) as (s & Hs & ->).
        replace (match t with EmptyString => fresh | String _ _ => false end) with false by (destruct t; auto; destruct Hne as [Hne|Hne]; auto; congruence).
        now apply stream_end.
    - apply no_cr_app in Hn. destruct Hn as [Hn Hn2]. apply no_cr_app in Hn2. destruct Hn2 as [_ Hn2].
      assert (E : forall rest, stream (append (t ++ COMMA ++ ts)%string rest) (mkReader fs "" START_FIELD) fresh
        = if short v then stream (append ts rest) (mkReader (fs ++ [v]) "" START_FIELD) false else failed).
      { intros rest. replace (append (t ++ COMMA ++ ts)%string rest) with (append t (String comma (append ts rest)))
          by (cbn [append str]; rewrite str_app_assoc; reflexivity).
        destruct (stream_cell t v Hc (String comma (append ts rest)) fs fresh Hn) as [H1 H2]. destruct (short v); auto.
        destruct (H1 eq_refl) as (s & Hs & ->). now apply stream_comma. }
      cbn [forallb]. destruct (IH (fs ++ [v]) false Hn2) as [I1 I2]. split.
      + intros rest. rewrite E. destruct (short v); auto. rewrite I1. cbn [andb]. rewrite <- app_assoc. reflexivity.
      + intros _. specialize (E ""). rewrite str_app_nil in E. rewrite E. destruct (short v); auto. rewrite str_app_nil, I2 by auto.
        cbn [andb]. rewrite <- app_assoc. reflexivity.
  Qed.

  Lemma stream_unclosed t vs : unclosed t vs -> forall fs fresh, no_cr t ->
    stream t (mkReader fs "" START_FIELD) fresh = if forallb short vs then ([fs ++ vs], Ok tt) else failed.
  Proof.
    induction 1 as [s t Hd|t v ts vs Hc Hr IH]; intros fs fresh Hn.
    - cbn [append str]. cbn [stream process_char st]. unfold start_field. cbn [ends]. change (newline (ascii_of_nat 34)) with false.
      change (Ascii.eqb (ascii_of_nat 34) quote) with true. change (Ascii.eqb (ascii_of_nat 34) LF) with false. cbv iota. unfold go. cbn [fields field].
      replace t with (append t "") by apply str_app_nil. rewrite (stream_quoted s t Hd) by auto. cbn [append forallb]. rewrite andb_true_r.
      destruct (short s); auto. cbn. unfold eol. cbn [process_char st is_state]. unfold eof. cbn [st is_state field fields]. now rewrite orb_true_r.
    - apply no_cr_app in Hn. destruct Hn as [Hn Hn2]. apply no_cr_app in Hn2. destruct Hn2 as [_ Hn2].
      replace (t ++ COMMA ++ ts)%string with (append t (String comma ts)) by reflexivity.
      destruct (stream_cell t v Hc (String comma ts) fs fresh Hn) as [H1 H2]. cbn [forallb]. destruct (short v); auto.
      destruct (H1 eq_refl) as (s & Hs & ->). rewrite stream_comma by auto. rewrite IH by auto. cbn [andb]. now rewrite <- app_assoc.
  Qed.

  (** ** Tables *)

  Lemma record_start c t vs : record (String c t) vs \/ unclosed (String c t) vs -> c <> LF.
  Proof.
    assert (Hc : forall a v, cell a v -> forall b, append a (String comma b) = String c t -> c <> LF).
    { intros a v [s (H & _)|s u r _ _] b E; [|injection E as <- _; discriminate].
      destruct s as [|d s]; injection E as <- _; [discriminate|]. intros ->. apply H. now exists "", s. }
    intros [H|H].
    - inversion H as [? v Hv|a v ts vs' Hv _ E]; subst.
      + inversion Hv as [s (Hs & _)|s u r _ _ E]; subst; [|discriminate]. intros ->. apply Hs. now exists "", t.
      + eapply Hc; eauto.
    - inversion H as [s u _ E|a v ts vs' Hv _ E]; subst; [discriminate|]. eapply Hc; eauto.
  Qed.
  Lemma stream_start c s fs fresh : c <> LF -> c <> CR ->
    stream (String c s) (mkReader fs "" START_RECORD) fresh = stream (String c s) (mkReader fs "" START_FIELD) fresh.
  Proof.
    intros H1 H2. cbn [stream process_char st]. replace (newline c) with false by (symmetry; apply newline_spec; auto). reflexivity.
  Qed.

  (** the rows before the first one with a cell that is too long *)
  Fixpoint readable (rows : list (list string)) : list (list string) * outcome unit :=
    match rows with
    | [] => ([], Ok tt)
    | vs :: rest => then_row vs (readable rest)
    end.

  Lemma stream_table s rows : table s rows -> no_cr s -> stream s parse_reset true = readable rows.
  Proof.
    induction 1 as [|s rows H IH|t vs s rows Hr Ht H IH|t vs Hr Ht|t vs Hu]; intros Hn; unfold parse_reset.
    - reflexivity.
    - cbn [append str stream process_char st]. change (newline lf) with true. change (Ascii.eqb lf LF) with true. cbv iota.
      unfold eol. cbn [go process_char st is_state fields field]. fold parse_reset. rewrite IH by apply Hn. reflexivity.
    - apply no_cr_app in Hn. destruct Hn as [Hn1 [_ Hn2]]. destruct t as [|c t]; [congruence|].
      cbn [append]. rewrite stream_start by (try (apply Hn1); eapply record_start; eauto).
      change (String c (append t (NL ++ s)%string)) with (append (String c t) (String LF s)).
      rewrite (proj1 (stream_record _ _ Hr [] true Hn1)). cbn [readable app]. unfold then_row. rewrite IH by auto. reflexivity.
    - destruct t as [|c t]; [congruence|]. rewrite stream_start by (try (apply Hn); eapply record_start; eauto).
      rewrite (proj2 (stream_record _ _ Hr [] true Hn)) by auto. cbn [readable app]. reflexivity.
    - assert (Ht : t <> "") by (inversion Hu as [| ? ? ? ? Hc]; [discriminate|]; destruct Hc; [destruct s|]; discriminate).
      destruct t as [|c t]; [congruence|]. rewrite stream_start by (try (apply Hn); eapply record_start; eauto).
      rewrite (stream_unclosed _ _ Hu [] true Hn). cbn [readable app]. reflexivity.
  Qed.

  Lemma csv_read_table text s rows : newlines text s -> table s rows -> csv_read limit text = readable rows.
  Proof.
    intros Hs Ht. apply newlines_universal in Hs. subst s. unfold csv_read. rewrite <- (proj1 (stream_rows _ _)).
    apply stream_table; auto. exact (universal_no_cr _ _ (le_n _)).
  Qed.

  Lemma readable_short rows : Forall (Forall (fun v => String.length v <= limit)) rows -> readable rows = (rows, Ok tt).
  Proof.
    induction 1 as [|vs rows Hv _ IH]; auto. cbn [readable]. unfold then_row.
    replace (forallb short vs) with true; [now rewrite IH|]. symmetry. apply forallb_forall. intros x Hx.
    rewrite Forall_forall in Hv. unfold short. apply Nat.leb_le. auto.
  Qed.
  Lemma readable_long rows vs rest : Forall (Forall (fun v => String.length v <= limit)) rows ->
    Exists (fun v => limit < String.length v) vs -> readable (rows ++ vs :: rest) = (rows, Exn too_large).
  Proof.
    intros H Hv. induction H as [|us rows Hu _ IH]; cbn [app readable]; unfold then_row.
    - replace (forallb short vs) with false; auto. symmetry. apply not_true_is_false. rewrite forallb_forall. intros Hx.
      rewrite Exists_exists in Hv. destruct Hv as (v & H1 & H2). apply Hx in H1. unfold short in H1. apply Nat.leb_le in H1. lia.
    - replace (forallb short us) with true; [now rewrite IH|]. symmetry. apply forallb_forall. intros x Hx.
      rewrite Forall_forall in Hu. unfold short. apply Nat.leb_le. auto.
  Qed.
End Reading.
