(** * Regular expressions: patterns are read as they are written *)

From Coq Require Import String Ascii List Bool Arith Lia.
From Verif Require Import Py Earley Lexer Regex RegexProofs RegexProofs2 RegexSyntax.
Import ListNotations.
Local Open Scope nat_scope.
Local Open Scope string_scope.
Local Open Scope list_scope.

(** ** escapes *)
Lemma letter_or_digit_spec c : letter_or_digit c = true <-> is_letter_or_digit c.
Proof.
  unfold letter_or_digit, is_letter_or_digit. cbv zeta. rewrite !orb_true_iff, !andb_true_iff, !Nat.leb_le. tauto.
Qed.
Lemma escaped_spec c i : escaped c = Some i <-> escape c i.
Proof.
  split.
  - unfold escaped.
    repeat match goal with |- (if Ascii.eqb c ?x then _ else _) = _ -> _ =>
      destruct (Ascii.eqb_spec c x) as [->|]; [intros [= <-]; constructor|] end.
    destruct (letter_or_digit c) eqn:E; [discriminate|]. intros [= <-]. apply e_itself.
    intros H. apply letter_or_digit_spec in H. congruence.
  - intros H. destruct H; try reflexivity. rename H into Hc.
    unfold escaped.
    repeat match goal with |- (if Ascii.eqb c ?x then _ else _) = _ =>
      destruct (Ascii.eqb_spec c x) as [->|]; [exfalso; apply Hc; apply letter_or_digit_spec; reflexivity|] end.
    destruct (letter_or_digit c) eqn:E; [|reflexivity]. exfalso. now apply Hc, letter_or_digit_spec.
Qed.

(** ** between brackets *)
Lemma class_item_spec first l rest : good_lit first l ->
  exists c s, append (show_lit l) rest = String c s /\ class_item c s = Some (lit_item l, rest) /\
    Ascii.eqb c "]" && negb first = false.
Proof.
  destruct l as [c|c i]; cbn [good_lit show_lit lit_item append].
  - intros [H1 H2]. exists c, rest. split; [reflexivity|]. split.
    + unfold class_item. apply Ascii.eqb_neq in H1. change backslash with "\"%char. now rewrite H1.
    + destruct (Ascii.eqb_spec c "]"); [|reflexivity]. now rewrite H2.
  - intros H. exists "\"%char, (String c rest). split; [reflexivity|]. split; [|reflexivity].
    unfold class_item. change (Ascii.eqb "\" backslash) with true. cbn iota. destruct H as [[-> ->]|H]; [reflexivity|].
    destruct (Ascii.eqb_spec c "b") as [->|].
    + inversion H; subst. exfalso. apply H0. unfold is_letter_or_digit. cbn. lia.
    + apply escaped_spec in H. now rewrite H.
Qed.
Lemma lit_len l : 1 <= String.length (show_lit l).
Proof. destruct l; cbn; lia. Qed.

Lemma class_items_spec l : forall first n rest, good_inside first l -> String.length (show_inside l) <= n ->
  class_items n first (append (show_inside l) rest) = Some (inside_items l, rest).
Proof.
  induction l as [|a|a l IH|a b l IH]; intros first n rest Hg Hn; cbn [show_inside good_inside inside_items] in *.
  - destruct n as [|n]; [cbn in Hn; lia|]. cbn. now rewrite Hg.
  - rewrite append_len in Hn. pose proof (lit_len a). cbn in Hn. destruct n as [|n]; [lia|].
    rewrite append_assoc. destruct (class_item_spec first a (append "-]" rest) Hg) as (c & s & E1 & E2 & E3).
    rewrite E1. cbn [class_items]. rewrite E3, E2. reflexivity.
  - destruct Hg as (Ha & Hl & Hd). rewrite append_len in Hn. pose proof (lit_len a). destruct n as [|n]; [lia|].
    rewrite append_assoc. destruct (class_item_spec first a (append (show_inside l) rest) Ha) as (c & s & E1 & E2 & E3).
    rewrite E1. cbn [class_items]. rewrite E3, E2.
    assert (Hb : exists h t, append (show_inside l) rest = String h t /\ Ascii.eqb h "-" = false).
    { assert (exists h t, show_inside l = String h t) as (h & t & El).
      { destruct l as [|x|x l'|x y l']; [now exists "]"%char, ""|..]; destruct x as [x|x j]; cbn; eauto. }
      rewrite El in *. exists h, (append t rest). split; [reflexivity|]. apply Ascii.eqb_neq. intros ->. apply Hd. now exists t. }
    destruct Hb as (h & t & Eh & Hh). rewrite Eh, Hh, <- Eh. rewrite (IH false n rest Hl); [reflexivity|]. lia.
  - destruct Hg as (Ha & Hb & Hl & c0 & d0 & Ec & Ed & Hle).
    rewrite !append_len in Hn. pose proof (lit_len a). pose proof (lit_len b). cbn in Hn. destruct n as [|n]; [lia|].
    rewrite !append_assoc.
    destruct (class_item_spec first a (append "-" (append (show_lit b) (append (show_inside l) rest))) Ha) as (c & s & E1 & E2 & E3).
    destruct (class_item_spec false b (append (show_inside l) rest) Hb) as (d & t & F1 & F2 & F3).
    rewrite E1. cbn [class_items]. rewrite E3, E2. cbn [append]. rewrite F1.
    rewrite andb_true_r in F3. change (Ascii.eqb "-" "-") with true. cbn iota. rewrite F3, F2, Ec, Ed. cbn [range_item].
    apply Nat.leb_le in Hle. rewrite Hle. rewrite (IH false n rest Hl); [reflexivity|]. lia.
Qed.

(** and only these are accepted *)
Lemma class_item_read first c s i rest : class_item c s = Some (i, rest) -> Ascii.eqb c "]" && negb first = false ->
  exists l, good_lit first l /\ String c s = append (show_lit l) rest /\ i = lit_item l.
Proof.
  unfold class_item. change backslash with "\"%char. destruct (Ascii.eqb_spec c "\") as [->|Hc].
  - destruct s as [|d s]; [discriminate|]. destruct (Ascii.eqb_spec d "b") as [->|Hd].
    + intros [= <- <-] _. exists (Escaped "b" (IChar "008")). split; [left; split; reflexivity|]. split; reflexivity.
    + destruct (escaped d) as [j|] eqn:E; [|discriminate]. intros [= <- <-] _. exists (Escaped d j).
      split; [right; now apply escaped_spec|]. split; reflexivity.
  - intros [= <- <-] Hf. exists (Plain c). split; [|split; reflexivity]. split; [exact Hc|]. intros ->. now destruct first.
Qed.
Lemma class_items_read n : forall first s items rest, class_items n first s = Some (items, rest) ->
  exists l, good_inside first l /\ s = append (show_inside l) rest /\ items = inside_items l.
Proof.
  induction n as [|n IH]; intros first s items rest H; [discriminate|]. destruct s as [|c s]; [discriminate|].
  cbn [class_items] in H. destruct (Ascii.eqb c "]" && negb first) eqn:Ec.
  { injection H as <- <-. apply andb_true_iff in Ec as [E1 E2]. apply Ascii.eqb_eq in E1. subst c. exists CEnd.
    split; [now destruct first|]. split; reflexivity. }
  destruct (class_item c s) as [[i [|h s2]]|] eqn:Ei; try discriminate.
  destruct (class_item_read _ _ _ _ _ Ei Ec) as (a & Ga & Ea & ->). rewrite Ea.
  destruct (Ascii.eqb_spec h "-") as [->|Hh].
  - destruct s2 as [|d s3]; [discriminate|]. destruct (Ascii.eqb_spec d "]") as [->|Hd].
    + injection H as <- <-. exists (CDash a). split; [exact Ga|]. split; [|reflexivity]. cbn [show_inside]. now rewrite append_assoc.
    + destruct (lit_item a) as [x| | | | |] eqn:Ex; try discriminate.
      destruct (class_item d s3) as [[j s4]|] eqn:Ej; try discriminate. destruct j as [y| | | | |]; try discriminate.
      destruct (Nat.leb (nat_of_ascii x) (nat_of_ascii y)) eqn:El; [|discriminate].
      destruct (class_items n false s4) as [[l r]|] eqn:E4; [|discriminate]. injection H as <- <-.
      destruct (class_item_read false _ _ _ _ Ej) as (b & Gb & Eb & Ey).
      { apply Ascii.eqb_neq in Hd. now rewrite Hd. }
      apply IH in E4 as (l' & Gl & -> & ->). exists (CRange a b l'). split.
      * cbn [good_inside]. split; [exact Ga|]. split; [exact Gb|]. split; [exact Gl|]. exists x, y. apply Nat.leb_le in El. auto.
      * split; [|cbn [inside_items]; now rewrite Ex, <- Ey]. cbn [show_inside]. rewrite !append_assoc. now rewrite <- Eb.
  - destruct (class_items n false (String h s2)) as [[l r]|] eqn:E4; [|discriminate]. injection H as <- <-.
    apply IH in E4 as (l' & Gl & E4 & ->). exists (CItem a l'). split; [|split; [|reflexivity]].
    + cbn [good_inside]. split; [exact Ga|]. split; [exact Gl|]. intros (t & Et). rewrite Et in E4. cbn in E4. congruence.
    + cbn [show_inside]. now rewrite append_assoc, E4.
Qed.

(** ** quantifiers *)
(** no quantifier follows *)
Definition quiet (s : string) : Prop := match s with String c _ => quantifier_char c = false | EmptyString => True end.

Lemma quantifier_spec c : quantifier_char c = true <-> c = "*"%char \/ c = "+"%char \/ c = "?"%char.
Proof. unfold quantifier_char. rewrite !orb_true_iff, !Ascii.eqb_eq. tauto. Qed.

Lemma postfix_spec b r q rest : quiet rest -> (b = false -> q = Once) ->
  postfix b r (append (show_quant q) rest) = Some (times q r, rest).
Proof.
  intros Hq Hb.
  assert (Lazy : forall c, quantifier_char c = true -> b = true ->
     postfix b r (String c (String "?" rest)) = Some (quantified r c true, rest)).
  { intros c Hc ->. cbn [postfix]. rewrite Hc. cbn [negb]. change (Ascii.eqb "?" "?") with true. cbn iota.
    destruct rest as [|e rest]; [reflexivity|]. cbn in Hq. now rewrite Hq. }
  assert (Greedy : forall c, quantifier_char c = true -> b = true ->
     postfix b r (String c rest) = Some (quantified r c false, rest)).
  { intros c Hc ->. cbn [postfix]. rewrite Hc. cbn [negb].
    destruct rest as [|e rest]; [reflexivity|]. cbn in Hq. rewrite Hq.
    destruct (Ascii.eqb_spec e "?") as [->|]; [discriminate|reflexivity]. }
  assert (Hb' : q <> Once -> b = true) by (intros H; destruct b; [reflexivity|]; now destruct (H (Hb eq_refl))).
  destruct q as [|[|]|[|]|[|]]; cbn [show_quant question append times];
    rewrite ?Lazy, ?Greedy by (reflexivity || (apply Hb'; discriminate)); try reflexivity.
  unfold postfix. destruct rest as [|c rest]; [reflexivity|]. cbn in Hq. now rewrite Hq.
Qed.
Lemma postfix_read b r s r' rest : postfix b r s = Some (r', rest) ->
  exists q, s = append (show_quant q) rest /\ r' = times q r /\ (b = false -> q = Once) /\ quiet rest.
Proof.
  unfold postfix. destruct s as [|c s]; [intros [= <- <-]; exists Once; repeat split; auto|].
  destruct (quantifier_char c) eqn:Ec; [|intros [= <- <-]; exists Once; repeat split; auto].
  destruct b; [|discriminate]. cbn [negb].
  assert (Q : forall z, exists q, (forall rest, String c (append (question z) rest) = append (show_quant q) rest) /\ quantified r c z = times q r).
  { intros z. apply quantifier_spec in Ec as [->|[->| ->]]; [exists (Many z)|exists (AtLeastOne z)|exists (AtMostOne z)];
      (split; [reflexivity|destruct z; reflexivity]). }
  assert (F : true = false -> forall q, q = Once) by discriminate.
  destruct s as [|d s].
  { intros [= <- <-]. destruct (Q false) as (q & E1 & E2). exists q. specialize (E1 ""). cbn in E1. repeat split; auto. }
  destruct (Ascii.eqb_spec d "?") as [->|Hd].
  - destruct (Q true) as (q & E1 & E2). destruct s as [|e s].
    + intros [= <- <-]. exists q. specialize (E1 ""). cbn in E1. repeat split; auto.
    + destruct (quantifier_char e) eqn:Ee; [discriminate|]. intros [= <- <-]. exists q. specialize (E1 (String e s)). cbn in E1. repeat split; auto.
  - destruct (quantifier_char d) eqn:Ed; [discriminate|]. intros [= <- <-]. destruct (Q false) as (q & E1 & E2). exists q.
    specialize (E1 (String d s)). cbn in E1. repeat split; auto.
Qed.

(** ** the whole pattern *)
Lemma special_eqb c x : ~ In c special -> In x special -> Ascii.eqb c x = false.
Proof. intros Hc Hx. apply Ascii.eqb_neq. intros ->. contradiction. Qed.

Lemma atom_first x : good_atom x -> exists c s, show_atom x = String c s /\ Ascii.eqb c "|" || Ascii.eqb c ")" = false /\
  quantifier_char c = false /\ Ascii.eqb c "$" = (match x with ADollar => true | _ => false end) /\ c <> "^"%char.
Proof.
  destruct x as [c|c i| | |negated l|captured a]; intros H.
  - exists c, "". cbn in H |- *. unfold quantifier_char.
    rewrite !(special_eqb c) by (auto; unfold special; cbn; tauto). repeat split. intros ->. apply H. unfold special. cbn; tauto.
  - exists "\"%char, (String c ""). repeat split; discriminate.
  - exists "."%char, "". repeat split; discriminate.
  - exists "$"%char, "". repeat split; discriminate.
  - exists "["%char, (append (if negated then "^" else "") (show_inside l)). destruct negated; repeat split; discriminate.
  - exists "("%char, (append (if captured then "" else "?:") (append (show_alts a) ")")). destruct captured; repeat split; discriminate.
Qed.

Lemma pieces_first p rest : good_pieces p -> stops rest = true -> quiet (append (show_pieces p) rest) /\
  (stops (append (show_pieces p) rest) = match p with Nothing => true | _ => false end) /\
  (begins "^" (show_pieces p) -> False).
Proof.
  intros Hp Hr. destruct p as [|x q p].
  - cbn [show_pieces append]. repeat split; auto.
    + destruct rest as [|c rest]; [exact I|]. cbn in Hr |- *. apply orb_true_iff in Hr. rewrite !Ascii.eqb_eq in Hr. now destruct Hr as [->| ->].
    + intros (s & E). discriminate.
  - destruct Hp as (Hx & _ & _). destruct (atom_first x Hx) as (c & s & E & E1 & E2 & _ & E3).
    cbn [show_pieces]. rewrite E. cbn [append]. repeat split; auto. intros (t & Et). injection Et as -> _. congruence.
Qed.

Lemma alts_first a rest : good_alts a -> stops rest = true -> quiet (append (show_alts a) rest) /\ (begins "^" (show_alts a) -> False).
Proof.
  intros Ha Hr. destruct a as [p|p a]; cbn [show_alts good_alts] in *.
  - destruct (pieces_first p rest Ha Hr) as (A & _ & B). auto.
  - destruct Ha as [Hp _]. rewrite append_assoc. destruct (pieces_first p (append (append "|" (show_alts a)) rest) Hp eq_refl) as (A & _ & B).
    split; [exact A|]. intros (t & Et). destruct p as [|x q p]; [discriminate|].
    destruct Hp as (Hx & _). destruct (atom_first x Hx) as (c & s & E & _ & _ & _ & E3). cbn [show_pieces] in Et. rewrite E in Et. injection Et as -> _. congruence.
Qed.

Lemma read_spec :
  (forall a, good_alts a -> forall n rest, rest = "" \/ begins ")" rest ->
     3 * String.length (append (show_alts a) rest) + 3 <= n -> read_alt n (append (show_alts a) rest) = Some (re_alts a, rest)) /\
  (forall p, good_pieces p -> forall n rest, stops rest = true ->
     3 * String.length (append (show_pieces p) rest) + 2 <= n -> read_seq n (append (show_pieces p) rest) = Some (re_pieces p, rest)) /\
  (forall x, good_atom x -> forall n rest,
     3 * String.length (append (show_atom x) rest) + 1 <= n -> read_atom n (append (show_atom x) rest) = Some (re_atom x, rest)).
Proof.
  apply syntax_ind.
  - (* One *)
    intros p IH Hg n rest Hr Hn. cbn [show_alts good_alts re_alts] in *. destruct n as [|n]; [lia|]. cbn [read_alt].
    assert (Hs : stops rest = true) by (destruct Hr as [->|(t & ->)]; reflexivity).
    rewrite (IH Hg n rest Hs) by lia. destruct Hr as [->|(t & ->)]; reflexivity.
  - (* Or *)
    intros p IHp a IHa [Hp Ha] n rest Hr Hn. cbn [show_alts re_alts] in *. rewrite !append_assoc in *. destruct n as [|n]; [lia|].
    cbn [read_alt]. rewrite (IHp Hp n (append "|" (append (show_alts a) rest)) eq_refl) by lia. cbn [append]. change (Ascii.eqb "|" "|") with true. cbn iota.
    rewrite (IHa Ha n rest Hr); [reflexivity|]. rewrite !append_len in *. cbn in *. lia.
  - (* Nothing *)
    intros _ n rest Hr Hn. cbn [show_pieces append re_pieces] in *. destruct n as [|n]; [lia|]. cbn [read_seq].
    destruct rest as [|c rest]; [reflexivity|]. now rewrite Hr.
  - (* Piece *)
    intros x IHx q p IHp (Hx & Hq & Hp) n rest Hr Hn. cbn [show_pieces] in *. rewrite !append_assoc in *.
    destruct n as [|n]; [lia|]. specialize (IHx Hx n (append (show_quant q) (append (show_pieces p) rest))).
    destruct (atom_first x Hx) as (c & s & E & E1 & _ & E2 & _).
    destruct (pieces_first p rest Hp Hr) as (Hquiet & Hstop & _).
    cbn [read_seq]. rewrite E in *. cbn [append] in *. cbn [stops]. rewrite E1. rewrite IHx by lia.
    rewrite postfix_spec; [|exact Hquiet|].
    2: { rewrite E2. intros Hb. apply Hq. destruct x; try discriminate. reflexivity. }
    rewrite Hstop. cbn [String.length] in Hn. rewrite !append_len in Hn.
    specialize (IHp Hp n rest Hr). rewrite append_len in IHp.
    destruct p as [|x' q' p']; [reflexivity|]. rewrite IHp by lia. reflexivity.
  - (* AChar *)
    intros c Hc n rest Hn. cbn [good_atom show_atom append re_atom] in *. destruct n as [|n]; [lia|]. cbn [read_atom].
    change backslash with "\"%char. unfold quantifier_char.
    rewrite !(special_eqb c) by (auto; unfold special; cbn; tauto). reflexivity.
  - (* AEscaped *)
    intros c i Hc n rest Hn. destruct n as [|n]; [lia|]. cbn [show_atom append read_atom re_atom].
    apply escaped_spec in Hc. rewrite Hc. reflexivity.
  - intros _ n rest Hn. destruct n as [|n]; [lia|]. reflexivity.
  - intros _ n rest Hn. destruct n as [|n]; [lia|]. reflexivity.
  - (* AClass *)
    intros negated l [Hl Hc] n rest Hn. destruct n as [|n]; [lia|]. cbn [show_atom re_atom]. destruct negated; cbn [append read_atom].
    + change (Ascii.eqb "[" "(") with false. change (Ascii.eqb "[" "[") with true. change (Ascii.eqb "^" "^") with true. cbn iota.
      rewrite class_items_spec; [reflexivity|exact Hl|]. rewrite append_len. lia.
    + change (Ascii.eqb "[" "(") with false. change (Ascii.eqb "[" "[") with true. cbn iota.
      destruct (append (show_inside l) rest) as [|d s] eqn:E.
      { destruct l as [|x|x l'|x y l']; try discriminate; destruct x; discriminate. }
      destruct (Ascii.eqb_spec d "^") as [->|Hd].
      * exfalso. apply Hc; [reflexivity|]. destruct (show_inside l) as [|d' s'] eqn:Es.
        { destruct l as [|a|a l'|a b l']; try discriminate; destruct a; discriminate. }
        cbn in E. injection E as -> _. now exists s'.
      * rewrite <- E. rewrite class_items_spec; [reflexivity|exact Hl|]. rewrite append_len. lia.
  - (* AGroup *)
    intros captured a IH Ha n rest Hn. destruct n as [|n]; [lia|]. cbn [show_atom re_atom good_atom] in *. rewrite !append_assoc in *.
    assert (R : forall m, 3 * String.length (append (show_alts a) (append ")" rest)) + 3 <= m ->
        read_alt m (append (show_alts a) (append ")" rest)) = Some (re_alts a, append ")" rest)).
    { intros m Hm. apply IH; [exact Ha|right; now exists rest|exact Hm]. }
    cbn [read_atom]. destruct captured; cbn [append] in *.
    + change (Ascii.eqb "(" "(") with true. cbn iota.
      destruct (alts_first a (String ")" rest) Ha eq_refl) as [Hquiet _].
      assert (Hi : match append (show_alts a) (String ")" rest) with
                   | String d (String e s'') => if Ascii.eqb d "?" && Ascii.eqb e ":" then s'' else append (show_alts a) (String ")" rest)
                   | _ => append (show_alts a) (String ")" rest)
                   end = append (show_alts a) (String ")" rest)).
      { destruct (append (show_alts a) (String ")" rest)) as [|d [|e t]]; try reflexivity. cbn in Hquiet.
        destruct (Ascii.eqb_spec d "?") as [->|]; [discriminate|reflexivity]. }
      rewrite Hi, R; [reflexivity|]. cbn [String.length] in Hn. lia.
    + change (Ascii.eqb "(" "(") with true. change (Ascii.eqb "?" "?" && Ascii.eqb ":" ":") with true. cbn iota.
      rewrite R; [reflexivity|]. cbn [String.length] in Hn. lia.
Qed.

Lemma compile_spec a : good_alts a -> compile (show_alts a) = Some (re_alts a) /\ compile (String "^" (show_alts a)) = Some (re_alts a).
Proof.
  intros Ha. destruct read_spec as [R _]. specialize (R a Ha (3 * String.length (show_alts a) + 3) "" (or_introl eq_refl)).
  rewrite append_nil in R. unfold compile. split.
  - destruct (alts_first a "" Ha eq_refl) as [_ Hc].
    assert (E : match show_alts a with String c s' => if Ascii.eqb c "^" then s' else show_alts a | EmptyString => show_alts a end = show_alts a).
    { destruct (show_alts a) as [|c s]; [reflexivity|]. destruct (Ascii.eqb_spec c "^") as [->|]; [|reflexivity]. exfalso. apply Hc. now exists s. }
    rewrite E, R by lia. reflexivity.
  - change (Ascii.eqb "^" "^") with true. cbn iota. rewrite R by lia. reflexivity.
Qed.

(** and nothing else is accepted *)
Lemma read_only n :
  (forall s r rest, read_alt n s = Some (r, rest) -> exists a, good_alts a /\ s = append (show_alts a) rest /\ r = re_alts a) /\
  (forall s r rest, read_seq n s = Some (r, rest) -> exists p, good_pieces p /\ s = append (show_pieces p) rest /\ r = re_pieces p /\ (stops s = false -> p <> Nothing)) /\
  (forall s r rest, read_atom n s = Some (r, rest) -> exists x, good_atom x /\ s = append (show_atom x) rest /\ r = re_atom x).
Proof.
  induction n as [|n (IHalt & IHseq & IHatom)]; [repeat split; intros; discriminate|].
  split; [|split]; intros s r rest H.
  - cbn [read_alt] in H. destruct (read_seq n s) as [[r1 s1]|] eqn:E; [|discriminate].
    apply IHseq in E as (p & Hp & -> & -> & _). destruct s1 as [|c s1].
    + injection H as <- <-. exists (One p). auto.
    + destruct (Ascii.eqb_spec c "|") as [->|].
      * destruct (read_alt n s1) as [[r2 s2]|] eqn:E; [|discriminate]. injection H as <- <-.
        apply IHalt in E as (a & Ha & -> & ->). exists (Or p a). split; [split; auto|]. split; [|reflexivity].
        cbn [show_alts]. rewrite !append_assoc. reflexivity.
      * injection H as <- <-. exists (One p). auto.
  - cbn [read_seq] in H. destruct s as [|c s]; [injection H as <- <-; exists Nothing; repeat split; discriminate|].
    destruct (stops (String c s)) eqn:Es; [injection H as <- <-; exists Nothing; repeat split; discriminate|].
    destruct (read_atom n (String c s)) as [[r1 s1]|] eqn:E; [|discriminate]. apply IHatom in E as (x & Hx & Ex & ->).
    destruct (postfix (negb (Ascii.eqb c "$")) (re_atom x) s1) as [[r2 s2]|] eqn:Ep; [|discriminate].
    apply postfix_read in Ep as (q & -> & -> & Hb & _).
    assert (Hq : x = ADollar -> q = Once).
    { intros ->. apply Hb. cbn in Ex. injection Ex as -> _. reflexivity. }
    destruct (stops s2) eqn:E2.
    + injection H as <- <-. exists (Piece x q Nothing). split; [cbn; auto|]. split; [|split; [reflexivity|discriminate]].
      rewrite Ex. cbn [show_pieces]. rewrite append_nil. now rewrite append_assoc.
    + destruct (read_seq n s2) as [[r3 s3]|] eqn:E3; [|discriminate]. injection H as <- <-.
      apply IHseq in E3 as (p & Hp & -> & -> & Hn). specialize (Hn E2). exists (Piece x q p).
      split; [cbn; auto|]. split; [|split; [destruct p; [congruence|reflexivity]|discriminate]].
      rewrite Ex. cbn [show_pieces]. now rewrite !append_assoc.
  - cbn [read_atom] in H. destruct s as [|c s]; [discriminate|].
    destruct (Ascii.eqb_spec c "(") as [->|N1].
    { assert (G : forall inner, match read_alt n inner with Some (r0, String d rest0) => if Ascii.eqb d ")" then Some (r0, rest0) else None | _ => None end = Some (r, rest) ->
        exists a, good_alts a /\ inner = append (show_alts a) (append ")" rest) /\ r = re_alts a).
      { intros inner Hi. destruct (read_alt n inner) as [[r0 [|d s0]]|] eqn:E; try discriminate.
        destruct (Ascii.eqb_spec d ")") as [->|]; [|discriminate]. injection Hi as <- <-. apply IHalt in E as (a & Ha & -> & ->). exists a. auto. }
      cbv zeta in H. apply G in H as (a & Ha & Hi & ->).
      assert (C : s = append (show_alts a) (append ")" rest) -> exists x, good_atom x /\ String "(" s = append (show_atom x) rest /\ re_alts a = re_atom x).
      { intros ->. exists (AGroup true a). split; [exact Ha|]. split; [|reflexivity]. cbn [show_atom]. now rewrite !append_assoc. }
      destruct s as [|d [|e s]]; [now apply C|now apply C|].
      destruct (Ascii.eqb d "?" && Ascii.eqb e ":") eqn:Eq; [|now apply C].
      apply andb_true_iff in Eq as [E1 E2]. apply Ascii.eqb_eq in E1, E2. subst d e s.
      exists (AGroup false a). split; [exact Ha|]. split; [|reflexivity]. cbn [show_atom]. now rewrite !append_assoc. }
    destruct (Ascii.eqb_spec c "[") as [->|N2].
    { destruct s as [|d s]; [discriminate|]. destruct (Ascii.eqb_spec d "^") as [->|Hd].
      - destruct (class_items (String.length s) true s) as [[l s1]|] eqn:E; [|discriminate]. injection H as <- <-.
        apply class_items_read in E as (l' & Gl & -> & ->). exists (AClass true l'). split; [split; [exact Gl|discriminate]|]. split; [|reflexivity].
        cbn [show_atom]. now rewrite append_assoc.
      - destruct (class_items (String.length (String d s)) true (String d s)) as [[l s1]|] eqn:E; [|discriminate]. injection H as <- <-.
        apply class_items_read in E as (l' & Gl & E & ->). exists (AClass false l'). split.
        + split; [exact Gl|]. intros _ (t & Et). rewrite Et in E. cbn in E. congruence.
        + split; [|reflexivity]. cbn [show_atom]. rewrite E. now rewrite append_assoc. }
    change backslash with "\"%char in H. destruct (Ascii.eqb_spec c "\") as [->|N3].
    { destruct s as [|d s]; [discriminate|]. destruct (escaped d) as [i|] eqn:E; [|discriminate]. injection H as <- <-.
      exists (AEscaped d i). split; [now apply escaped_spec|]. split; reflexivity. }
    destruct (Ascii.eqb_spec c ".") as [->|N4]; [injection H as <- <-; exists ADot; repeat split|].
    destruct (Ascii.eqb_spec c "$") as [->|N5]; [injection H as <- <-; exists ADollar; repeat split|].
    destruct (Ascii.eqb c "^" || Ascii.eqb c "{" || Ascii.eqb c "|" || Ascii.eqb c ")") eqn:N6; [discriminate|].
    destruct (quantifier_char c) eqn:N7; [discriminate|]. injection H as <- <-. exists (AChar c). split; [|split; reflexivity].
    cbn [good_atom]. intros Hc.
    apply orb_false_iff in N6 as [N6 Nd]. apply orb_false_iff in N6 as [N6 Nc]. apply orb_false_iff in N6 as [Na Nb].
    apply Ascii.eqb_neq in Na, Nb, Nc, Nd.
    assert (Nq : c <> "*"%char /\ c <> "+"%char /\ c <> "?"%char).
    { repeat split; intros ->; discriminate. }
    destruct Nq as (Q1 & Q2 & Q3). unfold special in Hc. cbn [In] in Hc. intuition congruence.
Qed.

Lemma compile_only s r : compile s = Some r -> exists a, good_alts a /\ (s = show_alts a \/ s = String "^" (show_alts a)) /\ r = re_alts a.
Proof.
  unfold compile. intros H.
  assert (G : forall t, match read_alt (3 * String.length t + 3) t with Some (r, EmptyString) => Some r | _ => None end = Some r ->
     exists a, good_alts a /\ t = show_alts a /\ r = re_alts a).
  { intros t Ht. destruct (read_alt _ t) as [[r0 [|d s0]]|] eqn:E; try discriminate. injection Ht as <-.
    apply (proj1 (read_only _)) in E as (a & Ha & -> & ->). exists a. rewrite append_nil. auto. }
  destruct s as [|c s].
  - apply G in H as (a & Ha & E & ->). exists a. auto.
  - destruct (Ascii.eqb_spec c "^") as [->|].
    + apply G in H as (a & Ha & -> & ->). exists a. auto.
    + apply G in H as (a & Ha & E & ->). exists a. auto.
Qed.

(** the readable patterns, and what they stand for *)
Lemma compile_iff s r : compile s = Some r <-> exists a, good_alts a /\ (s = show_alts a \/ s = String "^" (show_alts a)) /\ r = re_alts a.
Proof.
  split; [apply compile_only|]. intros (a & Ha & [->| ->] & ->); now apply compile_spec.
Qed.
