(** * What a SPARQL endpoint makes of the queries of the data source *)

From Coq Require Import ZArith String Ascii List Bool Permutation Lia Arith.
From Verif Require Import Py Effects Sparql SparqlEngine.
Import ListNotations.
Local Open Scope string_scope.
Local Open Scope list_scope.
Notation "a ^^ b" := (String.append a b) (at level 60, right associativity).

(** ** Reading a text piece by piece *)

Definition step (c : ascii) (m : mode) : option (list token * mode) :=
  match m with
  | MIri s =>
      if Nat.eqb (code c) 62 then Some ([TIri s], MStart)
      else if is_iri_char c then Some ([], MIri (push s c)) else None
  | MQuote q s =>
      if Nat.eqb (code c) q then
        if Nat.eqb q 39 then Some ([], MAt s) else Some ([TString s], MStart)
      else if Nat.eqb (code c) 92 then Some ([], MEscape q s)
      else if is_text_char q c then Some ([], MQuote q (push s c)) else None
  | MEscape q s =>
      match escaped c with Some c' => Some ([], MQuote q (push s c')) | None => None end
  | MAt s => if Nat.eqb (code c) 64 then Some ([], MLang s "") else None
  | MStart | MWord _ | MVar _ | MLang _ _ =>
      if is_name_char c then
        Some ([], match m with
                  | MWord s => MWord (push s c)
                  | MVar s => MVar (push s c)
                  | MLang s lang => MLang s (push lang c)
                  | _ => MWord (push "" c)
                  end)
      else
        match flush m with
        | None => None
        | Some l =>
            if is_space c then Some (l, MStart)
            else if is_punct c then Some (l ++ [TPunct c], MStart)
            else if Nat.eqb (code c) 60 then Some (l, MIri "")
            else if Nat.eqb (code c) 39 then Some (l, MQuote 39 "")
            else if Nat.eqb (code c) 34 then Some (l, MQuote 34 "")
            else if Nat.eqb (code c) 63 then Some (l, MVar "")
            else None
        end
  end.
Definition rbind (o : option (list token * mode)) (f : mode -> option (list token * mode)) : option (list token * mode) :=
  match o with
  | None => None
  | Some (l, m) => match f m with None => None | Some (l', m') => Some (l ++ l', m') end
  end.
Fixpoint run (s : string) (m : mode) : option (list token * mode) :=
  match s with
  | EmptyString => Some ([], m)
  | String c rest => rbind (step c m) (run rest)
  end.

Lemma ocons_app a b o : ocons (Some a) (ocons (Some b) o) = ocons (Some (a ++ b)) o.
Proof. destruct o; [|reflexivity]. cbn. now rewrite app_assoc. Qed.
Lemma ocons_nil o : ocons (Some []) o = o.
Proof. destruct o; reflexivity. Qed.
Lemma ocons_none o : ocons o None = None.
Proof. destruct o; reflexivity. Qed.

Lemma lex_step c rest m :
  lex (String c rest) m = match step c m with Some (l, m') => ocons (Some l) (lex rest m') | None => None end.
Proof.
  cbn [lex]. unfold step.
  destruct m; repeat match goal with
    | |- context [if ?b then _ else _] => destruct b
    | |- context [match ?o with Some _ => _ | None => _ end] => is_var o; destruct o
    | |- context [escaped c] => destruct (escaped c)
    | |- context [flush ?m] => destruct (flush m)
    end; rewrite ?ocons_app, ?ocons_nil, ?ocons_none; reflexivity.
Qed.
Lemma lex_run s : forall m,
  lex s m = match run s m with Some (l, m') => ocons (Some l) (flush m') | None => None end.
Proof.
  induction s as [|c s IH]; intros m; [cbn [lex run]; now rewrite ocons_nil|].
  rewrite lex_step. cbn [run]. destruct (step c m) as [[l m1]|]; [|reflexivity]. cbn [rbind]. rewrite IH.
  destruct (run s m1) as [[l' m2]|]; [|now rewrite ocons_none]. apply ocons_app.
Qed.

Lemma rbind_assoc o f g : rbind (rbind o f) g = rbind o (fun m => rbind (f m) g).
Proof.
  destruct o as [[l m]|]; [|reflexivity]. cbn [rbind]. destruct (f m) as [[l' m']|]; [|reflexivity].
  cbn [rbind]. destruct (g m') as [[l'' m'']|]; [|reflexivity]. now rewrite app_assoc.
Qed.
Lemma run_app a b : forall m, run (a ^^ b) m = rbind (run a m) (run b).
Proof.
  induction a as [|c a IH]; intros m; [cbn; destruct (run b m) as [[]|]; reflexivity|].
  cbn [String.append run]. rewrite rbind_assoc. destruct (step c m) as [[l m']|]; [|reflexivity]. cbn [rbind]. now rewrite IH.
Qed.

(** a piece that has been read entirely *)
Definition reads (s : string) (l : list token) : Prop := run s MStart = Some (l, MStart).
Lemma reads_app a b l l' : reads a l -> reads b l' -> reads (a ^^ b) (l ++ l').
Proof. unfold reads. intros H1 H2. rewrite run_app, H1. cbn [rbind]. now rewrite H2. Qed.

Fixpoint all_chars (P : ascii -> bool) (s : string) : bool :=
  match s with EmptyString => true | String c t => P c && all_chars P t end.

Lemma append_assoc (a b c : string) : (a ^^ b) ^^ c = a ^^ b ^^ c.
Proof. induction a as [|x a IH]; [reflexivity|]. cbn [String.append]. now rewrite IH. Qed.
Lemma push_append a c w : push a c ^^ w = a ^^ String c w.
Proof. unfold push. now rewrite append_assoc. Qed.
Lemma append_empty a : a ^^ "" = a.
Proof. induction a as [|x a IH]; [reflexivity|]. cbn [String.append]. now rewrite IH. Qed.

Section Grow.
  Variable P : ascii -> bool.
  Variable mk : string -> mode.
  Hypothesis grows : forall c a, P c = true -> step c (mk a) = Some ([], mk (push a c)).
  Lemma run_grow w : forall a, all_chars P w = true -> run w (mk a) = Some ([], mk (a ^^ w)).
  Proof.
    induction w as [|c w IH]; intros a H; [cbn; now rewrite append_empty|].
    cbn [all_chars] in H. apply andb_true_iff in H as (H1 & H2). cbn [run]. rewrite grows by exact H1. cbn [rbind].
    rewrite IH by exact H2. cbn [app]. now rewrite push_append.
  Qed.
End Grow.

(** a name: not empty *)
Definition name (w : string) : Prop := w <> "" /\ all_chars is_name_char w = true.

Lemma reads_name w : name w -> reads (w ^^ " ") [TWord w].
Proof.
  intros (Hn & H). destruct w as [|c w]; [congruence|]. cbn [all_chars] in H. apply andb_true_iff in H as (H1 & H2).
  unfold reads. cbn [String.append run]. cbn [step]. rewrite H1. cbn [rbind].
  rewrite run_app, (run_grow is_name_char MWord) by (auto; intros c' a E; cbn [step]; now rewrite E).
  reflexivity.
Qed.
Lemma reads_iri i : all_chars is_iri_char i = true -> reads ("<" ^^ i ^^ "> ") [TIri i].
Proof.
  intros H. unfold reads. change ("<" ^^ i ^^ "> ") with (String "<" (i ^^ "> ")). cbn [run].
  change (step "<" MStart) with (Some (@nil token, MIri "")). cbn [rbind].
  rewrite run_app, (run_grow is_iri_char MIri); auto.
  intros c a E. cbn [step]. rewrite E. destruct (Nat.eqb (code c) 62) eqn:E'; [|reflexivity].
  apply Nat.eqb_eq in E'. unfold is_iri_char, among in E. rewrite E' in E. discriminate.
Qed.
Definition text_chars : string -> bool := all_chars (is_text_char 39).
Lemma quote_grows q c a : is_text_char q c = true -> step c (MQuote q a) = Some ([], MQuote q (push a c)).
Proof.
  intros E. cbn [step]. rewrite E. unfold is_text_char, among in E. cbn [existsb] in E.
  rewrite negb_true_iff, !orb_false_iff in E. destruct E as (-> & -> & _). reflexivity.
Qed.
Lemma reads_text s lang : text_chars s = true -> name lang -> reads ("'" ^^ s ^^ "'@" ^^ lang ^^ " ") [TText s lang].
Proof.
  intros H (Hn & Hl). unfold reads. change ("'" ^^ s ^^ "'@" ^^ lang ^^ " ") with (String "'" (s ^^ "'@" ^^ lang ^^ " ")). cbn [run].
  change (step "'" MStart) with (Some (@nil token, MQuote 39 "")). cbn [rbind].
  rewrite run_app, (run_grow (is_text_char 39) (MQuote 39)); auto using quote_grows. cbn [rbind String.append].
  change (String "'" (String "@" (lang ^^ " "))) with ("'@" ^^ lang ^^ " "). rewrite run_app.
  change (run "'@" (MQuote 39 s)) with (Some (@nil token, MLang s "")).
  cbn [rbind]. rewrite run_app, (run_grow is_name_char (MLang s)) by (auto; intros c' a E; cbn [step]; now rewrite E).
  cbn [rbind String.append]. destruct lang as [|c lang]; [congruence|]. reflexivity.
Qed.

(** ** The pieces of a query *)

Definition selected (v0 v1 : value) : list token :=
  match is_none v0, is_none v1 with
  | true, true => [TVar "term0"; TVar "term1"]
  | true, false => [TVar "term0"]
  | false, true => [TVar "term1"]
  | false, false => [TPunct "*"]
  end.
Definition indent12 : string := "            ".
Definition indent16 : string := "                ".
Lemma reads_select lang v0 v1 c0 c1 :
  reads (nl ^^ indent12 ^^ "SELECT " ^^ join " " (prepare_variables v0 v1 (prepare_term lang v0 0 c0) (prepare_term lang v1 1 c1))
         ^^ " WHERE {" ^^ nl ^^ indent16)
        (TWord "SELECT" :: selected v0 v1 ++ [TWord "WHERE"; TPunct "{"]).
Proof. unfold reads. destruct v0; destruct v1; vm_compute; reflexivity. Qed.

(** a value that the data source can put into a query *)
Definition sendable (expand : string -> option term) (c : string) (v : value) : Prop :=
  match v with
  | VNone => True
  | VStr s =>
      if String.eqb c ID then all_chars is_iri_char s = true
      else if String.eqb c CONSTANT then name s /\ exists t, expand s = Some t
      else text_chars s = true
  | _ => False
  end.
Definition token_of (lang c : string) (v : value) (x : string) : token :=
  match v with
  | VStr s => if String.eqb c ID then TIri s else if String.eqb c CONSTANT then TWord s else TText s lang
  | _ => TVar x
  end.
Lemma reads_term expand lang c v i : name lang -> sendable expand c v -> i = 0 \/ i = 1 ->
  reads (prepare_term lang v i c ^^ " ") [token_of lang c v (if Nat.eqb i 0 then "term0" else "term1")].
Proof.
  intros Hl Hs Hi. destruct v; try (destruct Hs; fail).
  - destruct Hi as [-> | ->]; vm_compute; reflexivity.
  - cbn [prepare_term token_of]. cbn [sendable] in Hs. destruct (String.eqb c ID).
    + rewrite !append_assoc. now apply reads_iri.
    + destruct (String.eqb c CONSTANT); [now apply reads_name|]. rewrite !append_assoc. now apply reads_text.
Qed.

Definition filter_tokens (x lang : string) : list token :=
  [TWord "FILTER"; TPunct "("; TWord "LANG"; TPunct "("; TVar x; TPunct ")"; TPunct "="; TString lang; TPunct ")"].
Definition filter_text (tv lang : string) : string :=
  nl ^^ indent16 ^^ "FILTER(LANG(" ^^ tv ^^ ") = """ ^^ lang ^^ """) ." ^^ nl ^^ indent12.
Lemma is_text_name c : is_name_char c = true -> is_text_char 34 c = true.
Proof.
  unfold is_name_char, is_text_char, among. intros H. apply negb_true_iff. cbn [existsb].
  assert (Nat.eqb (code c) 34 = false /\ Nat.eqb (code c) 92 = false /\ Nat.eqb (code c) 10 = false /\ Nat.eqb (code c) 13 = false)
    as (-> & -> & -> & ->); [|reflexivity].
  rewrite !Nat.eqb_neq. rewrite !orb_true_iff, !andb_true_iff, !Nat.leb_le, !Nat.eqb_eq in H. lia.
Qed.
Lemma all_chars_weaken (P Q : ascii -> bool) w : (forall c, P c = true -> Q c = true) -> all_chars P w = true -> all_chars Q w = true.
Proof.
  intros H. induction w as [|c w IH]; [auto|]. cbn [all_chars]. rewrite !andb_true_iff. intros (H1 & H2). auto.
Qed.
Lemma reads_filter x lang : x = "term0" \/ x = "term1" -> name lang ->
  reads (filter_text (String "?" x) lang) (filter_tokens x lang ++ [TPunct "."]).
Proof.
  intros Hx (Hn & Hl). unfold filter_text, reads.
  replace (nl ^^ indent16 ^^ "FILTER(LANG(" ^^ String "?" x ^^ ") = """ ^^ lang ^^ """) ." ^^ nl ^^ indent12)
    with ((nl ^^ indent16 ^^ "FILTER(LANG(" ^^ String "?" x ^^ ") = """) ^^ lang ^^ """) ." ^^ nl ^^ indent12)
    by (rewrite !append_assoc; reflexivity).
  rewrite run_app.
  replace (run (nl ^^ indent16 ^^ "FILTER(LANG(" ^^ String "?" x ^^ ") = """) MStart)
    with (Some ([TWord "FILTER"; TPunct "("; TWord "LANG"; TPunct "("; TVar x; TPunct ")"; TPunct "="], MQuote 34 ""))
    by (destruct Hx as [-> | ->]; vm_compute; reflexivity).
  cbn [rbind]. rewrite run_app, (run_grow (is_text_char 34) (MQuote 34)); auto using quote_grows.
  eapply all_chars_weaken; [|exact Hl]. exact is_text_name.
Qed.

Definition filtered (c : string) (v : value) (x : string) : list string :=
  if is_none v && String.eqb c TEXT then [x] else [].

Lemma reads_query expand lang table c0 c1 v0 v1 text :
  name lang -> name table -> sendable expand c0 v0 -> sendable expand c1 v1 ->
  query_text lang (mkQuery table [c0; c1] [v0; v1]) = Ok text ->
  reads text (TWord "SELECT" :: selected v0 v1 ++ [TWord "WHERE"; TPunct "{"] ++
    [token_of lang c0 v0 "term0"; TWord table; token_of lang c1 v1 "term1"; TPunct "."] ++
    flat_map (fun x => filter_tokens x lang ++ [TPunct "."]) (filtered c0 v0 "term0" ++ filtered c1 v1 "term1") ++
    [TPunct "}"]).
Proof.
  intros Hl Ht H0 H1 H. unfold query_text in H. cbn [q_values q_columns q_table] in H. injection H as <-.
  unfold create_query.
  set (t0 := prepare_term lang v0 0 c0). set (t1 := prepare_term lang v1 1 c1).
  set (vars := prepare_variables v0 v1 t0 t1). cbn zeta.
  assert (Hf : exists f, fold_left (fun acc tv =>
      (acc ^^ nl ^^ "                FILTER(LANG(" ^^ tv ^^ ") = """ ^^ lang ^^ """) ." ^^ nl ^^ "            "))
      (prepare_text_variables v0 v1 t0 t1 c0 c1) "" = f /\
      reads f (flat_map (fun x => filter_tokens x lang ++ [TPunct "."]) (filtered c0 v0 "term0" ++ filtered c1 v1 "term1"))).
  { eexists. split; [reflexivity|]. unfold prepare_text_variables, filtered.
    assert (E0 : is_none v0 = true -> t0 = "?term0") by (unfold t0; destruct v0; try discriminate; reflexivity).
    assert (E1 : is_none v1 = true -> t1 = "?term1") by (unfold t1; destruct v1; try discriminate; reflexivity).
    pose proof (reads_filter "term0" lang (or_introl eq_refl) Hl) as R0.
    pose proof (reads_filter "term1" lang (or_intror eq_refl) Hl) as R1.
    unfold filter_text, indent16, indent12 in R0, R1.
    destruct (is_none v0); [rewrite E0 by auto|]; destruct (String.eqb c0 TEXT); cbn [andb app fold_left flat_map];
      (destruct (is_none v1); [rewrite E1 by auto|]; destruct (String.eqb c1 TEXT); cbn [andb app fold_left flat_map]);
      try exact (eq_refl : reads "" []);
      change ("" ^^ nl) with nl; try (rewrite ?app_nil_r; assumption).
    rewrite !app_nil_r in *. apply reads_app with (b := (nl ^^ _)); assumption. }
  destruct Hf as (f & -> & Hf).
  pose proof (reads_select lang v0 v1 c0 c1) as Rs. fold t0 t1 in Rs. fold vars in Rs.
  pose proof (reads_term expand lang c0 v0 0 Hl H0 (or_introl eq_refl)) as R0. fold t0 in R0. cbn [Nat.eqb] in R0.
  pose proof (reads_term expand lang c1 v1 1 Hl H1 (or_intror eq_refl)) as R1. fold t1 in R1. cbn [Nat.eqb] in R1.
  pose proof (reads_name table Ht) as Rt.
  assert (Rd : reads ("." ^^ nl ^^ indent16) [TPunct "."]) by (vm_compute; reflexivity).
  assert (Re : reads (nl ^^ indent12 ^^ "}" ^^ nl ^^ "        ") [TPunct "}"]) by (vm_compute; reflexivity).
  pose proof (reads_app _ _ _ _ Rs (reads_app _ _ _ _ R0 (reads_app _ _ _ _ Rt (reads_app _ _ _ _ R1
    (reads_app _ _ _ _ Rd (reads_app _ _ _ _ Hf Re)))))) as R.
  replace (nl ^^ "            SELECT " ^^ join " " vars ^^ " WHERE {" ^^ nl ^^ "                " ^^ t0 ^^ " " ^^ table ^^ " " ^^ t1
      ^^ " ." ^^ nl ^^ "                " ^^ f ^^ nl ^^ "            }" ^^ nl ^^ "        ")
    with ((nl ^^ indent12 ^^ "SELECT " ^^ join " " vars ^^ " WHERE {" ^^ nl ^^ indent16) ^^ (t0 ^^ " ") ^^ (table ^^ " ") ^^ (t1 ^^ " ") ^^
      ("." ^^ nl ^^ indent16) ^^ f ^^ nl ^^ indent12 ^^ "}" ^^ nl ^^ "        ").
  - revert R. cbn [app]. rewrite <- ?app_assoc. cbn [app]. auto.
  - unfold indent12, indent16. rewrite !append_assoc. reflexivity.
Qed.

(** ** The query that the text is *)

Definition part_for (expand : string -> option term) (lang c : string) (v : value) (x : string) : part :=
  match v with
  | VStr s =>
      if String.eqb c ID then PTerm (Iri s)
      else if String.eqb c CONSTANT then match expand s with Some t => PTerm t | None => PVar x end
      else PTerm (Text s lang)
  | _ => PVar x
  end.
Definition variables_for (v0 v1 : value) : option (list string) :=
  match is_none v0, is_none v1 with
  | true, true => Some ["term0"; "term1"]
  | true, false => Some ["term0"]
  | false, true => Some ["term1"]
  | false, false => None
  end.

Lemma token_not_punct lang c v x d : is_token (token_of lang c v x) d = false.
Proof. unfold token_of. destruct v; auto. repeat destruct (String.eqb _ _); reflexivity. Qed.
Lemma part_of_token expand lang c v x : sendable expand c v ->
  part_of expand (token_of lang c v x) = Some (part_for expand lang c v x).
Proof.
  destruct v; try (intros []; fail); cbn [sendable token_of part_for part_of]; auto.
  destruct (String.eqb c ID); [auto|]. destruct (String.eqb c CONSTANT); [|auto].
  intros (_ & t & E). cbn [part_of]. now rewrite E.
Qed.

Lemma query_parsed expand lang table c0 c1 v0 v1 text p :
  name lang -> name table -> expand table = Some p -> sendable expand c0 v0 -> sendable expand c1 v1 ->
  query_text lang (mkQuery table [c0; c1] [v0; v1]) = Ok text ->
  query_of_text expand text =
    Some (mkSelect (variables_for v0 v1)
      (mkGroup [(part_for expand lang c0 v0 "term0", PTerm p, part_for expand lang c1 v1 "term1")]
               (map (fun x => (x, lang)) (filtered c0 v0 "term0" ++ filtered c1 v1 "term1")))).
Proof.
  intros Hl Ht Hp H0 H1 H. pose proof (reads_query expand lang table c0 c1 v0 v1 text Hl Ht H0 H1 H) as R.
  unfold query_of_text. rewrite lex_run, R. cbn [flush]. unfold ocons. rewrite app_nil_r.
  assert (W : forall vars, parse_where expand vars ([TWord "WHERE"; TPunct "{"] ++
     [token_of lang c0 v0 "term0"; TWord table; token_of lang c1 v1 "term1"; TPunct "."] ++
     flat_map (fun x => filter_tokens x lang ++ [TPunct "."]) (filtered c0 v0 "term0" ++ filtered c1 v1 "term1") ++
     [TPunct "}"]) = Some (mkSelect vars
      (mkGroup [(part_for expand lang c0 v0 "term0", PTerm p, part_for expand lang c1 v1 "term1")]
               (map (fun x => (x, lang)) (filtered c0 v0 "term0" ++ filtered c1 v1 "term1"))))).
  { intros vars. cbn [app]. unfold parse_where. cbn [String.eqb Ascii.eqb eqb andb is_token].
    cbn [parse_group]. rewrite !token_not_punct. cbn [is_token Ascii.eqb eqb app].
    pose proof (part_of_token expand lang c0 v0 "term0" H0) as E0.
    pose proof (part_of_token expand lang c1 v1 "term1" H1) as E1.
    assert (G : forall l, parse_group (flat_map (fun x => filter_tokens x lang ++ [TPunct "."]) l ++ [TPunct "}"]) [] =
                Some (map (fun x => filter_tokens x lang) l)).
    { induction l as [|x l IH]; [reflexivity|]. cbn [flat_map map]. rewrite <- !app_assoc.
      unfold filter_tokens at 1. cbn [app parse_group is_token Ascii.eqb eqb]. rewrite IH. reflexivity. }
    rewrite G. cbn [read_group].
    assert (K : forall l, read_group expand (map (fun x => filter_tokens x lang) l) = Some (mkGroup [] (map (fun x => (x, lang)) l))).
    { induction l as [|x l IH]; [reflexivity|]. cbn [map read_group]. rewrite IH. reflexivity. }
    rewrite K. cbn [g_triples g_filters].
    assert (L : lang_filter [token_of lang c0 v0 "term0"; TWord table; token_of lang c1 v1 "term1"] = None).
    { unfold lang_filter. destruct (token_of lang c0 v0 "term0"); try reflexivity.
      destruct (token_of lang c1 v1 "term1"); reflexivity. }
    rewrite L. unfold triple_pattern. rewrite E0, E1. cbn [part_of]. rewrite Hp. reflexivity. }
  unfold variables_for, selected. unfold parse. cbn [String.eqb Ascii.eqb eqb].
  destruct (is_none v0), (is_none v1); cbn [app]; cbn [parse_variables app]; apply W.
Qed.

(** ** Its answers *)

Lemma flat_map_filter {A B} (f : B -> bool) (g : A -> list B) l : filter f (flat_map g l) = flat_map (fun x => filter f (g x)) l.
Proof. induction l as [|x l IH]; [reflexivity|]. cbn [flat_map]. now rewrite filter_app, IH. Qed.
Lemma map_flat_map {A B C} (f : B -> C) (g : A -> list B) l : map f (flat_map g l) = flat_map (fun x => map f (g x)) l.
Proof. induction l as [|x l IH]; [reflexivity|]. cbn [flat_map]. now rewrite map_app, IH. Qed.

(** the fact that a triple is, when it is asked for *)
Definition fits (expand : string -> option term) (lang c : string) (v : value) (t : term) : bool :=
  match v with
  | VStr s =>
      if String.eqb c ID then term_eqb (Iri s) t
      else if String.eqb c CONSTANT then match expand s with Some u => term_eqb u t | None => false end
      else term_eqb (Text s lang) t
  | _ => if String.eqb c TEXT then match t with Text _ l => String.eqb l lang | Iri _ => false end else true
  end.
Definition cell (v : value) (t : term) : value := if is_none v then VStr (lexical t) else v.

Definition row (v0 v1 : value) (t0 t1 : string) (it : item) : outcome (list value) :=
  match result_cell it v0 t0, result_cell it v1 t1 with
  | Ok a, Ok b => Ok [a; b]
  | Ok _, Exn e => Exn e
  | Exn e, _ => Exn e
  | _, _ => OutOfFuel
  end.
Lemma prepare_ok v0 v1 t0 t1 items : forall rows, Forall2 (fun it r => row v0 v1 t0 t1 it = Ok r) items rows ->
  prepare_results items v0 v1 t0 t1 = Ok rows.
Proof.
  intros rows H. induction H as [|it r items rows H _ IH]; [reflexivity|]. cbn [prepare_results]. unfold row in H.
  destruct (result_cell it v0 t0), (result_cell it v1 t1); try discriminate. injection H as <-. now rewrite IH.
Qed.

Lemma part_known expand lang c s x : sendable expand c (VStr s) ->
  exists u, part_for expand lang c (VStr s) x = PTerm u /\ forall t, fits expand lang c (VStr s) t = term_eqb u t.
Proof.
  cbn [sendable part_for fits]. destruct (String.eqb c ID); [eauto|]. destruct (String.eqb c CONSTANT); [|eauto].
  intros (_ & u & ->). eauto.
Qed.

Lemma triple_answers expand lang c0 c1 v0 v1 p t :
  sendable expand c0 v0 -> sendable expand c1 v1 ->
  let q := (part_for expand lang c0 v0 "term0", PTerm p, part_for expand lang c1 v1 "term1") in
  let fs := map (fun x => (x, lang)) (filtered c0 v0 "term0" ++ filtered c1 v1 "term1") in
  let t0 := prepare_term lang v0 0 c0 in let t1 := prepare_term lang v1 1 c1 in
  Forall2 (fun s r => row v0 v1 t0 t1 (json (project (variables_for v0 v1) s)) = Ok r)
    (filter (fun s => forallb (passes s) fs) (match_triple q [] t))
    (if fits expand lang c0 v0 (t_subject t) && term_eqb p (t_predicate t) && fits expand lang c1 v1 (t_object t)
     then [[cell v0 (t_subject t); cell v1 (t_object t)]] else []).
Proof.
  intros H0 H1. cbn zeta. unfold match_triple. destruct t as [ts tp to]. cbn [t_subject t_predicate t_object].
  assert (K : forall c v x, sendable expand c v ->
    (v = VNone /\ part_for expand lang c v x = PVar x) \/
    (exists s u, v = VStr s /\ part_for expand lang c v x = PTerm u /\ forall t, fits expand lang c v t = term_eqb u t)).
  { intros c v x H. destruct v; try (destruct H; fail); [left; auto|right].
    destruct (part_known expand lang c s x H) as (u & E1 & E2). exists s, u. auto. }
  destruct (K c0 v0 "term0" H0) as [(-> & E0)|(s0 & u0 & -> & E0 & F0)];
    destruct (K c1 v1 "term1" H1) as [(-> & E1)|(s1 & u1 & -> & E1 & F1)]; rewrite E0, E1;
    rewrite ?F0, ?F1; clear K H0 H1; unfold filtered; cbn [fits is_none andb].
  - destruct (String.eqb c0 TEXT); destruct (String.eqb c1 TEXT); cbn -[term_eqb];
      destruct ts, to; cbn -[term_eqb]; destruct (term_eqb p tp); cbn -[term_eqb];
      rewrite ?andb_false_r, ?andb_true_r;
      repeat match goal with |- context [String.eqb ?a lang] => destruct (String.eqb a lang) end; cbn;
      repeat constructor.
  - destruct (String.eqb c0 TEXT); cbn -[term_eqb];
      destruct ts; cbn -[term_eqb]; destruct (term_eqb p tp); cbn -[term_eqb]; destruct (term_eqb u1 to); cbn -[term_eqb];
      rewrite ?andb_false_r, ?andb_true_r;
      repeat match goal with |- context [String.eqb ?a lang] => destruct (String.eqb a lang) end; cbn;
      repeat constructor.
  - destruct (String.eqb c1 TEXT); cbn -[term_eqb];
      destruct to; cbn -[term_eqb]; destruct (term_eqb u0 ts); cbn -[term_eqb]; destruct (term_eqb p tp); cbn -[term_eqb];
      rewrite ?andb_false_r, ?andb_true_r;
      repeat match goal with |- context [String.eqb ?a lang] => destruct (String.eqb a lang) end; cbn;
      repeat constructor.
  - cbn -[term_eqb]. destruct (term_eqb u0 ts); cbn -[term_eqb]; [|repeat constructor].
    destruct (term_eqb p tp); cbn -[term_eqb]; [|repeat constructor]. destruct (term_eqb u1 to); cbn; repeat constructor.
Qed.

Lemma Forall2_flat_map {A B C} (R : B -> C -> Prop) (f : A -> list B) (g : A -> list C) l :
  (forall x, Forall2 R (f x) (g x)) -> Forall2 R (flat_map f l) (flat_map g l).
Proof. intros H. induction l as [|x l IH]; [constructor|]. cbn [flat_map]. now apply Forall2_app. Qed.
Lemma Forall2_perm {A B} (R : A -> B -> Prop) l l' : Permutation l l' -> forall m', Forall2 R l' m' ->
  exists m, Permutation m m' /\ Forall2 R l m.
Proof.
  induction 1 as [|x l l' _ IH|x y l|l l' l'' _ IH1 _ IH2]; intros m' H.
  - inversion H; subst. exists []. auto.
  - inversion H as [|? y ? m1 Hx Hm]; subst. destruct (IH m1 Hm) as (m & Hp & Hf). exists (y :: m). auto.
  - inversion H as [|? a ? m1 Hx Hm]; subst. inversion Hm as [|? b ? m2 Hy Hm2]; subst. exists (b :: a :: m2).
    split; [apply perm_swap|auto].
  - destruct (IH2 m' H) as (m1 & Hp1 & Hf1). destruct (IH1 m1 Hf1) as (m & Hp & Hf). exists m. split; auto. now transitivity m1.
Qed.
Lemma Forall2_map_l {A B C} (R : B -> C -> Prop) (f : A -> B) l m : Forall2 (fun x y => R (f x) y) l m -> Forall2 R (map f l) m.
Proof. induction 1; constructor; auto. Qed.

Lemma answers_rows expand lang c0 c1 v0 v1 p graph items :
  sendable expand c0 v0 -> sendable expand c1 v1 ->
  let q := mkSelect (variables_for v0 v1)
      (mkGroup [(part_for expand lang c0 v0 "term0", PTerm p, part_for expand lang c1 v1 "term1")]
               (map (fun x => (x, lang)) (filtered c0 v0 "term0" ++ filtered c1 v1 "term1"))) in
  Permutation items (map json (answers graph q)) ->
  exists rows, prepare_results items v0 v1 (prepare_term lang v0 0 c0) (prepare_term lang v1 1 c1) = Ok rows /\
    Permutation rows (map (fun t => [cell v0 (t_subject t); cell v1 (t_object t)])
      (filter (fun t => fits expand lang c0 v0 (t_subject t) && term_eqb p (t_predicate t) && fits expand lang c1 v1 (t_object t)) graph)).
Proof.
  intros H0 H1 q Hp. unfold answers, solutions, q in Hp. cbn [s_variables s_group g_triples g_filters fold_left] in Hp.
  unfold match_pattern in Hp. cbn [flat_map] in Hp. rewrite app_nil_r in Hp.
  assert (F : Forall2 (fun it r => row v0 v1 (prepare_term lang v0 0 c0) (prepare_term lang v1 1 c1) it = Ok r)
     (map json (map (project (variables_for v0 v1))
        (filter (fun s => forallb (passes s) (map (fun x => (x, lang)) (filtered c0 v0 "term0" ++ filtered c1 v1 "term1")))
           (flat_map (match_triple (part_for expand lang c0 v0 "term0", PTerm p, part_for expand lang c1 v1 "term1") []) graph))))
     (map (fun t => [cell v0 (t_subject t); cell v1 (t_object t)])
      (filter (fun t => fits expand lang c0 v0 (t_subject t) && term_eqb p (t_predicate t) && fits expand lang c1 v1 (t_object t)) graph))).
  { apply Forall2_map_l, Forall2_map_l. rewrite flat_map_filter.
    replace (map (fun t => [cell v0 (t_subject t); cell v1 (t_object t)])
      (filter (fun t => fits expand lang c0 v0 (t_subject t) && term_eqb p (t_predicate t) && fits expand lang c1 v1 (t_object t)) graph))
      with (flat_map (fun t => if fits expand lang c0 v0 (t_subject t) && term_eqb p (t_predicate t) && fits expand lang c1 v1 (t_object t)
         then [[cell v0 (t_subject t); cell v1 (t_object t)]] else []) graph).
    - apply Forall2_flat_map. intros t. now apply triple_answers.
    - clear Hp. induction graph as [|t graph IH]; [reflexivity|]. cbn [flat_map filter].
      destruct (_ && _); cbn [map app]; now rewrite IH. }
  destruct (Forall2_perm _ _ _ Hp _ F) as (rows & Hr & Hf). exists rows. split; [now apply prepare_ok|exact Hr].
Qed.
