(** * Looking up names, people and places on Wikidata *)

From Coq Require Import ZArith String Ascii List Bool Arith Lia Permutation.
From Verif Require Import Py PyFacts ReprProofs Effects EffectsFacts Solver CoreModule CoreProofs InferenceModule Sparql SparqlEngine SparqlEngineProofs PropSparql
  SimpleDataSource Memory MemoryProofs Earley FragmentModel SirSpec SirProofs5 CooperProofs3 WikidataModel WikidataSpec.
Import ListNotations.
Local Open Scope nat_scope.
Local Open Scope string_scope.
Local Open Scope list_scope.

(** ** capitals *)

Lemma title_cases c : nat_of_ascii c < 128 ->
  (letter c /\ cased c = true /\ big (upper_ascii c) /\ same_letter c (upper_ascii c) /\ small (lower_ascii c) /\ same_letter c (lower_ascii c)) \/
  (~ letter c /\ cased c = false /\ upper_ascii c = c /\ lower_ascii c = c).
Proof.
  intros H. unfold letter, small, big, same_letter.
  destruct c as [[] [] [] [] [] [] [] []]; vm_compute in H; try lia; vm_compute; first [left; repeat split; auto; lia|right; repeat split; lia].
Qed.
Lemma same_big c d d' : big d -> big d' -> letter c -> same_letter c d -> same_letter c d' -> d = d'.
Proof.
  unfold big, letter, small, same_letter. intros Hd Hd' Hc S S'.
  assert (E : nat_of_ascii d = nat_of_ascii d') by (destruct S as [->|S], S' as [->|S']; unfold big, small in *; lia).
  rewrite <- (ascii_nat_embedding d), <- (ascii_nat_embedding d'). now rewrite E.
Qed.
Lemma same_small c d d' : small d -> small d' -> letter c -> same_letter c d -> same_letter c d' -> d = d'.
Proof.
  unfold letter, small, big, same_letter. intros Hd Hd' Hc S S'.
  assert (E : nat_of_ascii d = nat_of_ascii d') by (destruct S as [->|S], S' as [->|S']; unfold big, small in *; lia).
  rewrite <- (ascii_nat_embedding d), <- (ascii_nat_embedding d'). now rewrite E.
Qed.
Lemma title_from_titled s : plain_chars s -> forall b, titled b s (title_from b s).
Proof.
  induction s as [|c s IH]; intros H b; [constructor|]. destruct H as (Hc & H). cbn [title_from].
  destruct (title_cases c Hc) as [(L & -> & B & SB & S & SS)|(L & -> & -> & ->)].
  - destruct b; [apply titled_goes_on|apply titled_begins]; auto.
  - destruct b; apply titled_other; auto.
Qed.
Lemma titled_once b s t : titled b s t -> forall t', titled b s t' -> t = t'.
Proof.
  induction 1 as [b|c d s t L B S T IH|c d s t L B S T IH|b c s t L T IH]; intros t' H; inversion H; subst; try contradiction; auto; f_equal; auto.
  - eapply same_big; eauto.
  - eapply same_small; eauto.
Qed.
Lemma title_titled n t : plain_chars n -> (titled false n t <-> t = title n).
Proof.
  intros H. split; [intros Ht; apply (titled_once _ _ _ Ht); now apply title_from_titled|intros ->; now apply title_from_titled].
Qed.

(** ** what can be sent *)
Lemma resource_chars i : resource i <-> all_chars is_iri_char i = true.
Proof. induction i as [|c i IH]; cbn; [tauto|]. rewrite andb_true_iff, IH. tauto. Qed.
Lemma word_text c : word_char c = true -> is_text_char 39 c = true.
Proof. destruct c as [[] [] [] [] [] [] [] []]; vm_compute; auto. Qed.
Lemma word_texts s : all_word s = true -> text_chars s = true.
Proof.
  induction s as [|c s IH]; [reflexivity|]. cbn. rewrite !andb_true_iff. intros (Hc & H). split; [now apply word_text|now apply IH].
Qed.
Lemma title_char c (b : bool) : nat_of_ascii c < 128 -> word_char c = true -> word_char (if b then lower_ascii c else upper_ascii c) = true.
Proof. intros H. destruct c as [[] [] [] [] [] [] [] []]; vm_compute in H; try lia; destruct b; vm_compute; auto. Qed.
Lemma title_word s : plain_chars s -> all_word s = true -> forall b, all_word (title_from b s) = true.
Proof.
  induction s as [|c s IH]; [reflexivity|]. intros (Hc & Hp). cbn. rewrite andb_true_iff. intros (Hw & H) b. rewrite IH, andb_true_r by assumption. now apply title_char.
Qed.

(** ** the rows that are selected *)
Lemma shown_once v t a b : shown v t a -> shown v t b -> a = b.
Proof. intros H H'. inversion H; subst; inversion H'; subst; congruence. Qed.
Lemma rows_of_in wanted v0 v1 graph rows : rows_of wanted v0 v1 graph rows ->
  forall row, In row rows <-> exists t a b, In t graph /\ wanted t /\ shown v0 (t_subject t) a /\ shown v1 (t_object t) b /\ row = [a; b].
Proof.
  induction 1 as [|t graph a b rows Hw Ha Hb H IH|t graph rows Hw H IH]; intros row.
  - split; [intros []|intros (t & a & b & [] & _)].
  - cbn [In]. rewrite IH. split.
    + intros [<-|(t' & a' & b' & H1 & H2)]; [exists t, a, b; auto 10|exists t', a', b'; intuition].
    + intros (t' & a' & b' & [<-|H1] & H2 & H3 & H4 & ->); [left; f_equal; [|f_equal]; eapply shown_once; eauto|right; exists t', a', b'; auto 10].
  - rewrite IH. split; intros (t' & a' & b' & H1 & H2); [exists t', a', b'; intuition|]. destruct H1 as [<-|H1]; [tauto|]. exists t', a', b'. auto.
Qed.
Lemma choose {A B} (f : A -> B) (l : list B) (P : A -> Prop) : (forall b, In b l -> exists a, b = f a /\ P a) -> exists l', l = map f l' /\ forall a, In a l' -> P a.
Proof.
  induction l as [|b l IH]; intros H; [exists []; split; [reflexivity|intros a []]|]. destruct (H b (or_introl eq_refl)) as (a & -> & Ha).
  destruct IH as (l' & -> & Hl); [intros b' Hb; apply H; now right|]. exists (a :: l'). split; [reflexivity|]. intros a' [<-|H']; auto.
Qed.

Section Endpoint.
  Context {E : Type}.
  Variable ask : string -> M E response.
  Variable expand : string -> option term.
  Variable V : vocabulary.
  Variable graph : list triple.
  Hypothesis Hserves : serves expand graph ask.
  Hypothesis Hlabel : expand "rdfs:label" = Some (v_label V).
  Hypothesis Hinstance : expand "wdt:P31" = Some (v_instance V).
  Hypothesis Hbirth : expand "wdt:P19" = Some (v_birth V).
  Hypothesis Hhuman : expand "wd:Q5" = Some (v_human V).
  Hypothesis Horderly : orderly V graph.

  Notation labelled := (labelled V graph).
  Notation is_human := (is_human V graph).
  Notation born_in := (born_in V graph).
  Notation called := (called V graph).
  Notation unlabelled := (unlabelled V graph).
  Definition st (e : E) (out : sds_store) : wiki E := mkWiki e wiki_rules out.

  Lemma selected table p c0 c1 v0 v1 e out : SparqlEngineProofs.name table -> expand table = Some p -> sendable expand c0 v0 -> sendable expand c1 v1 ->
    exists rows e', wi_select E ask table [c0; c1] [v0; v1] (st e out) = (Ok rows, st e' out) /\
    forall row, In row rows <-> exists t a b, In t graph /\ (meets expand "en" c0 v0 (t_subject t) /\ t_predicate t = p /\ meets expand "en" c1 v1 (t_object t)) /\
      shown v0 (t_subject t) a /\ shown v1 (t_object t) b /\ row = [a; b].
  Proof.
    intros Ht Hp H0 H1. assert (Hl : SparqlEngineProofs.name "en") by (split; [discriminate|reflexivity]).
    destruct (C49_the_facts_of_the_graph_are_selected E expand "en" graph ask table p c0 c1 v0 v1 e Hserves Hl Ht Hp H0 H1) as (rows & rows' & e' & H & Hperm & Hrows).
    exists rows, e'. split; [unfold wi_select; cbn [wi_endpoint_lens lget lset st wi_endpoint wi_rb wi_out]; now rewrite H|].
    intros row. rewrite <- (rows_of_in _ _ _ _ _ Hrows row). split; apply Permutation_in; [exact Hperm|now apply Permutation_sym].
  Qed.

  Ltac prefixed := split; [discriminate|reflexivity].
  Lemma meets_id v t : meets expand "en" ID (VStr v) t <-> t = Iri v.
  Proof.
    split; [|intros ->; constructor; constructor]. intros H. inversion H as [? ? ? Hs| |]; subst. inversion Hs; subst; auto; unfold ID in *; congruence.
  Qed.
  Lemma meets_text_value v t : meets expand "en" TEXT (VStr v) t <-> t = Text v "en".
  Proof.
    split; [|intros ->; constructor; constructor; discriminate]. intros H. inversion H as [? ? ? Hs| |]; subst. inversion Hs; subst; auto; unfold TEXT in *; congruence.
  Qed.

  (** who has the name *)
  Lemma names_selected n e out : text_chars n = true -> exists ids e',
    wi_select E ask "rdfs:label" [ID; TEXT] [VNone; VStr n] (st e out) = (Ok (map (fun i => [VStr i; VStr n]) ids), st e' out) /\
    forall i, In i ids <-> labelled i n.
  Proof.
    intros Hn. destruct (selected "rdfs:label" (v_label V) ID TEXT VNone (VStr n) e out) as (rows & e' & Es & Hr); [prefixed|exact Hlabel|exact I|exact Hn|].
    destruct (choose (fun i => [VStr i; VStr n]) rows (fun _ => True)) as (ids & -> & _).
    - intros row Hin. apply Hr in Hin as (t & a & b & Ht & (_ & Hp & Hm) & Ha & Hb & ->).
      destruct (proj1 (Horderly t Ht) Hp) as (i & m & l & Ei & _ & _). rewrite Ei in Ha. inversion Ha; subst. inversion Hb; subst. eauto.
    - exists ids, e'. split; [exact Es|]. intros i. split.
      + intros Hi. assert (Hin : In [VStr i; VStr n] (map (fun i => [VStr i; VStr n]) ids)) by (apply in_map_iff; eauto).
        apply Hr in Hin as (t & a & b & Ht & (_ & Hp & Hm) & Ha & Hb & [= <- <-]). apply meets_text_value in Hm.
        destruct (proj1 (Horderly t Ht) Hp) as (i' & m & l & Ei & _ & _). rewrite Ei in Ha. inversion Ha; subst. unfold WikidataSpec.labelled. destruct t as [s p o]; cbn in *. now subst.
      + intros Hi. assert (Hin : In [VStr i; VStr n] (map (fun i => [VStr i; VStr n]) ids)).
        { apply Hr. exists (mkTriple (Iri i) (v_label V) (Text n "en")), (VStr i), (VStr n). split; [exact Hi|]. cbn. split; [split; [|split; [reflexivity|now apply meets_text_value]]|].
          - apply meets_any. discriminate.
          - split; [constructor|]. split; [constructor|reflexivity]. }
        apply in_map_iff in Hin as (i' & [= ->] & Hi'). exact Hi'.
  Qed.
  (** the labels it has *)
  Lemma labels_selected i e out : resource i -> exists ls e',
    wi_select E ask "rdfs:label" [ID; TEXT] [VStr i; VNone] (st e out) = (Ok (map (fun l => [VStr i; VStr l]) ls), st e' out) /\
    forall l, In l ls <-> labelled i l.
  Proof.
    intros Hn. destruct (selected "rdfs:label" (v_label V) ID TEXT (VStr i) VNone e out) as (rows & e' & Es & Hr); [prefixed|exact Hlabel|now apply resource_chars|exact I|].
    assert (Hm : forall t, meets expand "en" TEXT VNone t <-> exists s, t = Text s "en").
    { intros t. split; [|intros (s & ->); constructor]. intros H. inversion H; subst; [eauto|]. unfold TEXT in *. congruence. }
    destruct (choose (fun l => [VStr i; VStr l]) rows (fun _ => True)) as (ls & -> & _).
    - intros row Hin. apply Hr in Hin as (t & a & b & Ht & (_ & Hp & Ho) & Ha & Hb & ->). apply Hm in Ho as (s & Ho). rewrite Ho in Hb.
      inversion Ha; subst. inversion Hb; subst. eauto.
    - exists ls, e'. split; [exact Es|]. intros l. split.
      + intros Hi. assert (Hin : In [VStr i; VStr l] (map (fun l => [VStr i; VStr l]) ls)) by (apply in_map_iff; eauto).
        apply Hr in Hin as (t & a & b & Ht & (Hs & Hp & Ho) & Ha & Hb & [= <- <-]). apply Hm in Ho as (s & Ho). apply meets_id in Hs. rewrite Ho in Hb. inversion Hb; subst.
        unfold WikidataSpec.labelled. destruct t as [? p o]; cbn in *. now subst.
      + intros Hi. assert (Hin : In [VStr i; VStr l] (map (fun l => [VStr i; VStr l]) ls)).
        { apply Hr. exists (mkTriple (Iri i) (v_label V) (Text l "en")), (VStr i), (VStr l). split; [exact Hi|]. cbn. split; [split; [now apply meets_id|split; [reflexivity|apply Hm; eauto]]|].
          split; [constructor|]. split; [constructor|reflexivity]. }
        apply in_map_iff in Hin as (l' & [= ->] & Hl'). exact Hl'.
  Qed.
  (** where they were born *)
  Lemma births_selected i e out : resource i -> exists ps e',
    wi_select E ask "wdt:P19" [ID; ID] [VStr i; VNone] (st e out) = (Ok (map (fun p => [VStr i; VStr p]) ps), st e' out) /\
    forall p, In p ps <-> born_in i p.
  Proof.
    intros Hn. destruct (selected "wdt:P19" (v_birth V) ID ID (VStr i) VNone e out) as (rows & e' & Es & Hr); [prefixed|exact Hbirth|now apply resource_chars|exact I|].
    destruct (choose (fun p => [VStr i; VStr p]) rows (fun _ => True)) as (ps & -> & _).
    - intros row Hin. apply Hr in Hin as (t & a & b & Ht & (_ & Hp & Ho) & Ha & Hb & ->).
      destruct (proj2 (Horderly t Ht) Hp) as (i' & p & Ei & Eo & _). rewrite Eo in Hb. inversion Ha; subst. inversion Hb; subst. eauto.
    - exists ps, e'. split; [exact Es|]. intros p. split.
      + intros Hi. assert (Hin : In [VStr i; VStr p] (map (fun p => [VStr i; VStr p]) ps)) by (apply in_map_iff; eauto).
        apply Hr in Hin as (t & a & b & Ht & (Hs & Hp & Ho) & Ha & Hb & [= <- <-]). apply meets_id in Hs.
        destruct (proj2 (Horderly t Ht) Hp) as (i' & p' & Ei & Eo & _). rewrite Eo in Hb. inversion Hb; subst.
        unfold WikidataSpec.born_in. destruct t as [? q o]; cbn in *. now subst.
      + intros Hi. assert (Hin : In [VStr i; VStr p] (map (fun p => [VStr i; VStr p]) ps)).
        { apply Hr. exists (mkTriple (Iri i) (v_birth V) (Iri p)), (VStr i), (VStr p). split; [exact Hi|]. cbn. split; [split; [now apply meets_id|split; [reflexivity|]]|].
          - apply meets_any. discriminate.
          - split; [constructor|]. split; [constructor|reflexivity]. }
        apply in_map_iff in Hin as (l' & [= ->] & Hl'). exact Hl'.
  Qed.
  (** whether they are human *)
  Lemma human_selected i e out : resource i -> exists rows e',
    wi_select E ask "wdt:P31" [ID; CONSTANT] [VStr i; VStr "wd:Q5"] (st e out) = (Ok rows, st e' out) /\ (rows <> [] <-> is_human i).
  Proof.
    intros Hn. destruct (selected "wdt:P31" (v_instance V) ID CONSTANT (VStr i) (VStr "wd:Q5") e out) as (rows & e' & Es & Hr);
      [prefixed|exact Hinstance|now apply resource_chars|cbn; split; [prefixed|eauto]|].
    assert (Hm : forall t, meets expand "en" CONSTANT (VStr "wd:Q5") t <-> t = v_human V).
    { intros t. split; [|intros ->; constructor; constructor; exact Hhuman]. intros H. inversion H as [? ? ? Hs| |]; subst. inversion Hs; subst; try congruence. unfold CONSTANT in *. congruence. }
    exists rows, e'. split; [exact Es|]. split.
    - intros Hne. destruct rows as [|row rows]; [congruence|]. destruct (proj1 (Hr row) (or_introl eq_refl)) as (t & a & b & Ht & (Hs & Hp & Ho) & _).
      apply meets_id in Hs. apply Hm in Ho. unfold WikidataSpec.is_human. destruct t as [? q o]; cbn in *. now subst.
    - intros Hi ->. apply (proj2 (Hr [VStr i; VStr "wd:Q5"])). exists (mkTriple (Iri i) (v_instance V) (v_human V)), (VStr i), (VStr "wd:Q5"). split; [exact Hi|]. cbn.
      split; [split; [now apply meets_id|split; [reflexivity|now apply Hm]]|]. split; [constructor|]. split; [constructor|reflexivity].
  Qed.
End Endpoint.
