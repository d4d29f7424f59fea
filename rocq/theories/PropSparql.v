(** * Property C49: what is selected from a SPARQL endpoint *)

From Coq Require Import ZArith String Ascii List Bool Permutation.
From Verif Require Import Py Effects Sparql SparqlEngine SparqlEngineProofs.
Import ListNotations.
Local Open Scope string_scope.
Local Open Scope list_scope.

(** an endpoint with a graph that does not change: it answers each query with
    its solutions, in any order, and refuses what is not a query *)
Definition serves {E} (expand : string -> option term) (graph : list triple) (ask : string -> M E response) : Prop :=
  forall text e, exists e',
    match query_of_text expand text with
    | Some q => exists items, ask text e = (Ok (RData items), e') /\ Permutation items (map json (answers graph q))
    | None => ask text e = (Ok (RStatus 400), e')
    end.

(** the column says what a value is: a resource ([id]), a name of the endpoint
    ([constant]), or else a text in the language of the data source *)
Inductive stands_for (expand : string -> option term) (lang : string) : string -> string -> term -> Prop :=
| stands_id s : stands_for expand lang "id" s (Iri s)
| stands_constant s t : expand s = Some t -> stands_for expand lang "constant" s t
| stands_text c s : c <> "id" -> c <> "constant" -> stands_for expand lang c s (Text s lang).
(** the term in a column meets the value that is asked for; when none is given,
    a [text] column has only texts in the language *)
Inductive meets (expand : string -> option term) (lang : string) : string -> value -> term -> Prop :=
| meets_value c s t : stands_for expand lang c s t -> meets expand lang c (VStr s) t
| meets_text s : meets expand lang "text" VNone (Text s lang)
| meets_any c t : c <> "text" -> meets expand lang c VNone t.
(** what is in the row *)
Inductive shown : value -> term -> value -> Prop :=
| shown_given s t : shown (VStr s) t (VStr s)
| shown_iri i : shown VNone (Iri i) (VStr i)
| shown_text s l : shown VNone (Text s l) (VStr s).
(** the rows of the triples, each once *)
Inductive rows_of (wanted : triple -> Prop) (v0 v1 : value) : list triple -> list (list value) -> Prop :=
| rows_none : rows_of wanted v0 v1 [] []
| rows_wanted t graph a b rows : wanted t -> shown v0 (t_subject t) a -> shown v1 (t_object t) b ->
    rows_of wanted v0 v1 graph rows -> rows_of wanted v0 v1 (t :: graph) ([a; b] :: rows)
| rows_other t graph rows : ~ wanted t -> rows_of wanted v0 v1 graph rows -> rows_of wanted v0 v1 (t :: graph) rows.

Lemma term_eqb_eq a b : term_eqb a b = true <-> a = b.
Proof.
  destruct a, b; cbn [term_eqb]; try (split; discriminate).
  - rewrite String.eqb_eq. split; congruence.
  - rewrite andb_true_iff, !String.eqb_eq. split; [intros (-> & ->); reflexivity|intros [= -> ->]; auto].
Qed.
Lemma fits_meets expand lang c v t : sendable expand c v -> (fits expand lang c v t = true <-> meets expand lang c v t).
Proof.
  destruct v; try (intros []; fail); cbn [fits sendable].
  - intros _. unfold TEXT. destruct (String.eqb_spec c "text") as [->|Hc].
    + destruct t as [i|s l].
      * split; [discriminate|]. intros H. inversion H; subst. congruence.
      * rewrite String.eqb_eq. split; [intros ->; constructor|]. intros H. inversion H; subst; congruence.
    + split; auto. intros _. now constructor.
  - unfold ID, CONSTANT. destruct (String.eqb_spec c "id") as [->|Hi].
    + intros _. rewrite term_eqb_eq. split; [intros <-; repeat constructor|]. intros H. inversion H as [? ? ? Hs| |]; subst.
      inversion Hs; subst; congruence.
    + destruct (String.eqb_spec c "constant") as [->|Hk].
      * intros (_ & u & E). rewrite E, term_eqb_eq. split; [intros <-; constructor; now constructor|].
        intros H. inversion H as [? ? ? Hs| |]; subst. inversion Hs; subst; congruence.
      * intros _. rewrite term_eqb_eq. split; [intros <-; constructor; now constructor|].
        intros H. inversion H as [? ? ? Hs| |]; subst. inversion Hs; subst; congruence.
Qed.
Lemma cell_shown expand c v t : sendable expand c v -> shown v t (cell v t).
Proof. destruct v; try (intros []; fail); intros _; [destruct t; constructor|constructor]. Qed.

(** for all values that can be put into a query, the rows are those of the
    triples of the graph that meet the values, whatever the order *)
Theorem C49_the_facts_of_the_graph_are_selected :
  forall E expand lang graph (ask : string -> M E response) table p c0 c1 v0 v1 e,
    serves expand graph ask ->
    name lang -> name table -> expand table = Some p ->
    sendable expand c0 v0 -> sendable expand c1 v1 ->
    exists rows rows' e',
      do_select E lang ask (mkQuery table [c0; c1] [v0; v1]) e = (Ok rows, e') /\
      Permutation rows rows' /\
      rows_of (fun t => meets expand lang c0 v0 (t_subject t) /\ t_predicate t = p /\
                        meets expand lang c1 v1 (t_object t)) v0 v1 graph rows'.
Proof.
  intros E expand lang graph ask table p c0 c1 v0 v1 e Hs Hl Ht Hp H0 H1.
  assert (Hq : exists text, query_text lang (mkQuery table [c0; c1] [v0; v1]) = Ok text) by (eexists; reflexivity).
  destruct Hq as (text & Hq). pose proof (query_parsed expand lang table c0 c1 v0 v1 text p Hl Ht Hp H0 H1 Hq) as Hparse.
  destruct (Hs text e) as (e' & Ha). rewrite Hparse in Ha. destruct Ha as (items & Ha & Hi).
  destruct (answers_rows expand lang c0 c1 v0 v1 p graph items H0 H1 Hi) as (rows & Hr & Hperm).
  eexists rows, _, e'. split; [|split; [exact Hperm|]].
  - unfold do_select. rewrite Hq. cbn [q_values q_columns]. unfold bind. rewrite Ha, Hr. reflexivity.
  - clear -H0 H1. induction graph as [|t graph IH]; [constructor|]. cbn [filter].
    pose proof (fits_meets expand lang c0 v0 (t_subject t) H0) as F0.
    pose proof (fits_meets expand lang c1 v1 (t_object t) H1) as F1.
    pose proof (term_eqb_eq p (t_predicate t)) as Fp.
    destruct (_ && _) eqn:Ew.
    + rewrite !andb_true_iff in Ew. destruct Ew as ((E0 & E1) & E2). cbn [map]. apply rows_wanted; auto.
      * rewrite <- F0, <- F1. repeat split; auto. symmetry. now apply Fp.
      * eapply cell_shown; eauto.
      * eapply cell_shown; eauto.
    + apply rows_other; auto. intros (M0 & M1 & M2). apply F0 in M0. apply F1 in M2. symmetry in M1. apply Fp in M1.
      rewrite M0, M1, M2 in Ew. discriminate.
Qed.
Print Assumptions C49_the_facts_of_the_graph_are_selected.

(** ** An endpoint *)

Definition wd (w : string) : option term :=
  if String.eqb w "rdfs:label" then Some (Iri "http://www.w3.org/2000/01/rdf-schema#label")
  else if String.eqb w "wdt:P19" then Some (Iri "http://www.wikidata.org/prop/direct/P19")
  else if String.eqb w "wd:Q5" then Some (Iri "http://www.wikidata.org/entity/Q5") else None.
Definition label : term := Iri "http://www.w3.org/2000/01/rdf-schema#label".
Definition born : term := Iri "http://www.wikidata.org/prop/direct/P19".
Definition people : list triple :=
  [ mkTriple (Iri "e:1") label (Text "Ada Lovelace" "en");
    mkTriple (Iri "e:1") label (Text "Ada King" "en");
    mkTriple (Iri "e:1") label (Text "Ada Lovelace" "nl");
    mkTriple (Iri "e:2") label (Text "London" "en");
    mkTriple (Iri "e:1") born (Iri "e:2");
    mkTriple (Iri "e:3") label (Text "Peter O'Toole" "en") ].
Definition wikidata (text : string) : M unit response :=
  match query_of_text wd text with
  | Some q => ret (RData (rev (map json (answers people q))))
  | None => ret (RStatus 400)
  end.
Lemma wikidata_serves : serves wd people wikidata.
Proof.
  intros text []. exists tt. unfold wikidata. destruct (query_of_text wd text) as [q|]; [|reflexivity].
  eexists. split; [reflexivity|]. apply Permutation_sym, Permutation_rev.
Qed.
Definition asked (table c0 c1 : string) (v0 v1 : value) : outcome (list (list value)) :=
  fst (do_select unit "en" wikidata (mkQuery table [c0; c1] [v0; v1]) tt).

Example C49_example :
  serves wd people wikidata /\ name "en" /\ name "rdfs:label" /\
  sendable wd "text" (VStr "Ada Lovelace") /\ sendable wd "id" (VStr "e:1") /\ sendable wd "constant" (VStr "wd:Q5") /\
  asked "rdfs:label" "id" "text" VNone (VStr "Ada Lovelace") = Ok [[VStr "e:1"; VStr "Ada Lovelace"]] /\
  asked "rdfs:label" "id" "text" (VStr "e:1") VNone
    = Ok [[VStr "e:1"; VStr "Ada King"]; [VStr "e:1"; VStr "Ada Lovelace"]] /\
  asked "wdt:P19" "id" "id" (VStr "e:1") (VStr "e:2") = Ok [[VStr "e:1"; VStr "e:2"]] /\
  asked "wdt:P19" "id" "id" (VStr "e:2") (VStr "e:1") = Ok [].
Proof.
  split; [exact wikidata_serves|]. split; [split; [discriminate|reflexivity]|]. split; [split; [discriminate|reflexivity]|].
  split; [reflexivity|]. split; [reflexivity|].
  split; [split; [split; [discriminate|reflexivity]|eexists; reflexivity]|].
  split; [vm_compute; reflexivity|]. split; [vm_compute; reflexivity|]. split; vm_compute; reflexivity.
Qed.

(** the values are put into the query as they are.  A text with an apostrophe
    is refused, although the graph has it; and a text can be made that asks for
    something else: here the name of a person who is not in the graph selects
    resources that have other names. *)
Theorem C49_texts_are_not_quoted_refuted :
  In (mkTriple (Iri "e:3") label (Text "Peter O'Toole" "en")) people /\
  asked "rdfs:label" "id" "text" VNone (VStr "Peter O'Toole") = Exn (Raise "Bad request") /\
  (forall t, In t people -> ~ meets wd "en" "text" (VStr "London'@en . ?term0 rdfs:label 'London") (t_object t)) /\
  asked "rdfs:label" "id" "text" VNone (VStr "London'@en . ?term0 rdfs:label 'London")
    = Ok [[VStr "e:2"; VStr "London'@en . ?term0 rdfs:label 'London"]].
Proof.
  split; [cbn; auto 10|]. split; [vm_compute; reflexivity|]. split; [|vm_compute; reflexivity].
  intros t Ht H. inversion H as [? ? ? Hs| |]; subst. inversion Hs; subst.
  repeat (destruct Ht as [<-|Ht]; [discriminate|]). destruct Ht.
Qed.
Print Assumptions C49_texts_are_not_quoted_refuted.
