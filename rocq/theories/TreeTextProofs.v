(** * Proofs about the texts of parse trees *)

From Coq Require Import String Ascii List Bool Lia.
From Verif Require Import Earley Composer ParserFacts Logger TreeText TreeTextSpec LexerProofs.
Import ListNotations.
Local Open Scope string_scope.

Section Ind.
  Variable P : outline -> Prop.
  Hypothesis Hw : forall c f, P (Word c f).
  Hypothesis Hp : forall c l, Forall P l -> P (Phrase c l).
  Fixpoint outline_ind' (o : outline) : P o :=
    match o with
    | Word c f => Hw c f
    | Phrase c l => Hp c l ((fix go (l : list outline) : Forall P l :=
        match l with [] => Forall_nil P | x :: l' => Forall_cons x (outline_ind' x) (go l') end) l)
    end.
End Ind.

(** ** texts *)

Lemma app_head a : forall x y, a ++ x = a ++ y -> x = y.
Proof. induction a as [|c a IH]; intros x y H; auto. injection H. auto. Qed.
Lemma without_cons bad c s : without bad (String c s) <-> ~ In c bad /\ without bad s.
Proof.
  split.
  - intros H. split; [intros Hc; exact (H c Hc "" s eq_refl)|]. intros d Hd a b ->. exact (H d Hd (String c a) b eq_refl).
  - intros [H1 H2] d Hd [|x a] b E; injection E as -> E; [contradiction|]. exact (H2 d Hd a b E).
Qed.
Definition heads (bad : list ascii) (s : string) : Prop := exists c r, s = String c r /\ In c bad.
Lemma split_at bad a : forall b x y, without bad a -> without bad b -> heads bad x -> heads bad y -> a ++ x = b ++ y -> a = b /\ x = y.
Proof.
  induction a as [|c a IH]; intros [|d b] x y Ha Hb Hx Hy E.
  - auto.
  - exfalso. destruct Hx as (z & r & -> & Hz). injection E as -> _. apply without_cons in Hb. tauto.
  - exfalso. destruct Hy as (z & r & -> & Hz). injection E as -> _. apply without_cons in Ha. tauto.
  - injection E as -> E. apply without_cons in Ha, Hb. destruct (IH b x y) as [-> ->]; tauto.
Qed.

(** ** on one line *)

Fixpoint otext (o : outline) : string :=
  match o with
  | Word c f => c ++ " '" ++ f ++ "'"
  | Phrase c l =>
      c ++ "(" ++ (fix body (sep : string) (l : list outline) : string :=
            match l with
            | [] => ""
            | o :: rest => (if shown o then sep ++ otext o else "") ++ body " " rest
            end) "" l ++ ")"
  end.
Fixpoint obody (sep : string) (l : list outline) : string :=
  match l with
  | [] => ""
  | o :: rest => (if shown o then sep ++ otext o else "") ++ obody " " rest
  end.
Lemma otext_phrase c l : otext (Phrase c l) = c ++ "(" ++ obody "" l ++ ")".
Proof.
  reflexivity.
Qed.

Lemma inline_outline t : outline_of t = Phrase (match t with Node c _ _ _ => c end) (match t with Node _ l _ _ => map outline_of l end) ->
  inline_str t = otext (outline_of t).
Proof.
  induction t as [cat ts form r IH] using tree_ind'. intros E. rewrite E, otext_phrase. cbn [inline_str]. f_equal. f_equal. f_equal.
  clear E. match goal with |- ?F "" ts = obody "" ?L => enough (G : forall sep, F sep ts = obody sep L) by apply G end. induction IH as [|[c cs f r'] ts H _ IHt]; [reflexivity|]. intros sep.
  cbn [map obody]. rewrite IHt. f_equal.
  destruct f as [|a f].
  - cbn [String.eqb outline_of shown]. f_equal. now apply H.
  - cbn [outline_of]. destruct (String.eqb_spec (String a f) " ") as [->|Hs]; [reflexivity|].
    cbn [String.eqb]. replace (shown (Word c (String a f))) with true; [reflexivity|].
    symmetry. unfold shown. clear H IHt.
    destruct a as [[] [] [] [] [] [] [] []]; try reflexivity. destruct f; [congruence|reflexivity].
Qed.

Notation name_bad := [" "; "("; ")"]%char.
Lemma name_start c x : c <> "" -> without name_bad c -> exists a r, c ++ x = String a r /\ a <> " "%char /\ a <> ")"%char.
Proof.
  intros Hn Hw. destruct c as [|a c]; [congruence|]. apply without_cons in Hw. exists a, (c ++ x). split; [reflexivity|].
  split; intros ->; apply (proj1 Hw); cbn; tauto.
Qed.
Lemma otext_start o x : clear_text o -> shown o = true -> exists a r, otext o ++ x = String a r /\ a <> " "%char /\ a <> ")"%char.
Proof. intros [c f H1 H2 _|c|c l H1 H2 _]; [| discriminate |]; intros _; cbn [otext]; rewrite str_app_assoc; now apply name_start. Qed.

(** the first part that is shown *)
Lemma obody_first l : forall sep, (sep = "" \/ sep = " ") -> Forall clear_text l ->
  (filter shown l = [] /\ obody sep l = "") \/
  exists o rest s, (In o l /\ shown o = true) /\ Forall clear_text rest /\ filter shown l = o :: filter shown rest /\ obody sep l = s ++ otext o ++ obody " " rest /\ (s = "" \/ s = " ").
Proof.
  induction l as [|o l IH]; intros sep Hs Hc; [left; auto|]. inversion Hc; subst. cbn [filter obody]. destruct (shown o) eqn:E.
  - right. exists o, l, sep. rewrite !str_app_assoc. repeat split; auto. now left.
  - destruct (IH " ") as [(H3 & H4)|(o' & rest & s & H3 & H4 & H5 & H6 & H7)]; auto.
    right. exists o', rest, s. destruct H3. repeat split; auto. now right.
Qed.

Lemma filter_tidy l : filter shown (map tidy l) = map tidy (filter shown l).
Proof. induction l as [|[c f|c k] l IH]; cbn; [reflexivity| |now rewrite IH]. rewrite IH. destruct (match f with " " => false | _ => true end); reflexivity. Qed.

Definition prefix_free (o1 : outline) : Prop := forall o2 r1 r2, clear_text o1 -> clear_text o2 -> shown o1 = true -> shown o2 = true ->
  otext o1 ++ r1 = otext o2 ++ r2 -> tidy o1 = tidy o2 /\ r1 = r2.

Lemma obody_inj l1 : Forall prefix_free l1 -> forall sep1 sep2 l2 r1 r2, (sep1 = "" \/ sep1 = " ") -> (sep2 = "" \/ sep2 = " ") ->
  Forall clear_text l1 -> Forall clear_text l2 -> obody sep1 l1 ++ ")" ++ r1 = obody sep2 l2 ++ ")" ++ r2 ->
  map tidy (filter shown l1) = map tidy (filter shown l2) /\ r1 = r2.
Proof.
  induction 1 as [|o1 l1 Ho _ IH]; intros sep1 sep2 l2 r1 r2 Hs1 Hs2 Hc1 Hc2 E.
  - cbn [obody filter map append] in E |- *. destruct (obody_first l2 sep2 Hs2 Hc2) as [(H1 & H2)|(o & rest & s & H1 & H2 & H3 & H4 & H5)].
    + rewrite H1, H2 in *. injection E as ->. auto.
    + exfalso. rewrite H4, !str_app_assoc in E. destruct (otext_start o (obody " " rest ++ String ")" r2)) as (a & r & Ha & Hx & Hy).
      { rewrite Forall_forall in Hc2. destruct H1; auto. } { apply H1. }
      rewrite Ha in E. destruct H5 as [-> | ->]; injection E as E _; congruence.
  - inversion Hc1; subst. cbn [filter obody] in *. destruct (shown o1) eqn:Es.
    2: { apply (IH " " sep2 l2); auto. }
    rewrite !str_app_assoc in E.
    destruct (otext_start o1 (obody " " l1 ++ ")" ++ r1)) as (a & r & Ha & Hx & Hy); auto.
    destruct (obody_first l2 sep2 Hs2 Hc2) as [(G1 & G2)|(o & rest & s & G1 & G2 & G3 & G4 & G5)].
    + exfalso. rewrite G2, Ha in E. destruct Hs1 as [-> | ->]; injection E as E _; congruence.
    + destruct G1 as [G1 Gs]. assert (Hco : clear_text o) by (rewrite Forall_forall in Hc2; auto).
      rewrite G4, !str_app_assoc in E. destruct (otext_start o (obody " " rest ++ ")" ++ r2)) as (b & r' & Hb & Hx' & Hy'); auto.
      assert (E' : otext o1 ++ obody " " l1 ++ ")" ++ r1 = otext o ++ obody " " rest ++ ")" ++ r2).
      { rewrite Ha, Hb in *. destruct Hs1 as [-> | ->], G5 as [-> | ->]; cbn [append] in E; injection E as E1 E2; congruence. }
      apply Ho in E'; auto. destruct E' as [E1 E2]. apply (IH " " " ") in E2; auto. destruct E2 as [E2 ->].
      rewrite G3. cbn [map]. rewrite E1, E2. auto.
Qed.

Lemma otext_inj o1 : prefix_free o1.
Proof.
  assert (Hh : forall c r, In c name_bad -> heads name_bad (String c r)) by (intros c r H; exists c, r; auto).
  induction o1 as [c f|c l IH] using outline_ind'; intros o2 r1 r2 H1 H2 S1 S2 E.
  - inversion H1 as [c' f' A1 A2 A3|c'|]; subst; [|discriminate]. destruct H2 as [c2 f2 G1 G2 G3|c2|c2 l2 G1 G2 G3]; [|discriminate|].
    + cbn [otext] in E. rewrite !str_app_assoc in E. apply (split_at name_bad) in E; auto; try (apply Hh; cbn; tauto).
      destruct E as [-> E]. cbn [append] in E. injection E as E. apply (split_at ["'"]%char) in E; auto.
      * destruct E as [-> E]. injection E as ->. auto.
      * exists "'"%char. eexists. split; [reflexivity|now left].
      * exists "'"%char. eexists. split; [reflexivity|now left].
    + exfalso. rewrite otext_phrase in E. cbn [otext] in E. rewrite !str_app_assoc in E.
      apply (split_at name_bad) in E; auto; try (apply Hh; cbn; tauto). destruct E as [_ E]. discriminate.
  - inversion H1; subst. destruct H2 as [c2 f2 G1 G2 G3|c2|c2 l2 G1 G2 G3]; [|discriminate|].
    + exfalso. rewrite otext_phrase in E. cbn [otext] in E. rewrite !str_app_assoc in E.
      apply (split_at name_bad) in E; auto; try (apply Hh; cbn; tauto). destruct E as [_ E]. discriminate.
    + rewrite !otext_phrase, !str_app_assoc in E. apply (split_at name_bad) in E; auto; try (apply Hh; cbn; tauto).
      destruct E as [-> E]. cbn [append] in E. injection E as E.
      apply (obody_inj l IH "" "" l2 r1 r2) in E; auto. destruct E as [E ->]. cbn [tidy]. now rewrite !filter_tidy, E.
Qed.

(** ** on lines *)

Fixpoint olines (indent : string) (o : outline) : string :=
  match o with
  | Word _ _ => ""
  | Phrase _ l =>
      (fix lines (l : list outline) : string :=
         match l with
         | [] => ""
         | o :: rest =>
             indent ++ "+- " ++ match o with
                                | Word c f => c ++ " '" ++ f ++ "'" ++ lf
                                | Phrase c _ => c ++ lf ++ olines (indent ++ match rest with [] => "   " | _ => "|  " end) o
                                end ++ lines rest
         end) l
  end.
Fixpoint parts_lines (indent : string) (l : list outline) : string :=
  match l with
  | [] => ""
  | o :: rest =>
      indent ++ "+- " ++ match o with
                         | Word c f => c ++ " '" ++ f ++ "'" ++ lf
                         | Phrase c _ => c ++ lf ++ olines (indent ++ match rest with [] => "   " | _ => "|  " end) o
                         end ++ parts_lines indent rest
  end.
Lemma olines_phrase indent c l : olines indent (Phrase c l) = parts_lines indent l.
Proof. induction l as [|o l IH]; [reflexivity|]. cbn [parts_lines]. rewrite <- IH. reflexivity. Qed.

Lemma lines_outline t : forall indent, tree_lines indent t = parts_lines indent (match t with Node _ l _ _ => map outline_of l end).
Proof.
  induction t as [cat ts form r IH] using tree_ind'. intros indent. cbn [tree_lines].
  induction IH as [|[c cs f r'] ts H _ IHt]; [reflexivity|].
  cbn [map parts_lines]. rewrite IHt. clear IHt. destruct f as [|a f].
  - cbn [String.eqb outline_of]. rewrite H, olines_phrase, !str_app_assoc. destruct ts; reflexivity.
  - cbn [String.eqb outline_of]. rewrite !str_app_assoc. reflexivity.
Qed.

(** what comes after the lines with this indent *)
Definition leaves (indent r : string) : Prop := r = "" \/ forall x, r <> indent ++ x.
Lemma leaves_deeper indent i2 r : leaves indent r -> leaves (indent ++ i2) r.
Proof. intros [->|H]; [now left|]. right. intros x E. apply (H (i2 ++ x)). now rewrite <- str_app_assoc. Qed.

Definition parts_free (o : outline) : Prop := match o with Word _ _ => True | Phrase _ l1 =>
  forall indent l2 r1 r2, Forall clear_lines l1 -> Forall clear_lines l2 -> leaves indent r1 -> leaves indent r2 ->
    parts_lines indent l1 ++ r1 = parts_lines indent l2 ++ r2 -> l1 = l2 /\ r1 = r2 end.

Lemma first_line indent l r : (l = [] /\ parts_lines indent l ++ r = r) \/ (exists x, parts_lines indent l ++ r = indent ++ String "+" x).
Proof. destruct l as [|o l]; [now left|right]. cbn [parts_lines]. rewrite !str_app_assoc. eexists. reflexivity. Qed.

Lemma without_fewer bad more s : (forall c, In c bad -> In c more) -> without more s -> without bad s.
Proof. intros H Hs c Hc. apply Hs. auto. Qed.
Lemma without_app bad a b : without bad a -> without bad b -> without bad (a ++ b).
Proof. induction a as [|c a IH]; intros Ha Hb; [exact Hb|]. cbn. apply without_cons in Ha. apply without_cons. tauto. Qed.
(** at the last quote *)
Lemma split_last bad c : In c bad -> forall a b x y, without bad x -> without bad y -> a ++ String c x = b ++ String c y -> a = b /\ x = y.
Proof.
  intros Hc. induction a as [|d a IH]; intros [|e b] x y Hx Hy E; cbn in E.
  - injection E as ->. auto.
  - exfalso. injection E as <- E. exact (Hx c Hc b y E).
  - exfalso. injection E as -> E. exact (Hy c Hc a x (eq_sym E)).
  - injection E as -> E. destruct (IH b x y Hx Hy E) as [-> ->]. auto.
Qed.
Lemma newline_name c f : without [newline] c -> without ["'"; newline]%char f -> without [newline] (c ++ " '" ++ f ++ "'").
Proof.
  intros Hc Hf. apply without_app; [exact Hc|]. apply without_app; [|apply without_app].
  - intros d [<-|[]] [|x [|y a]] b E; cbn in E; try discriminate E. injection E as _ _ E. destruct a; discriminate.
  - apply (without_fewer _ ["'"; newline]%char); [cbn; tauto|exact Hf].
  - intros d [<-|[]] [|x a] b E; cbn in E; try discriminate E. injection E as _ E. destruct a; discriminate.
Qed.
Lemma word_line c1 f1 c2 f2 x y : without [newline] c1 -> without ["'"; newline]%char f1 -> without [newline] c2 -> without ["'"; newline]%char f2 ->
  c1 ++ " '" ++ f1 ++ "'" ++ lf ++ x = c2 ++ " '" ++ f2 ++ "'" ++ lf ++ y -> c1 = c2 /\ f1 = f2 /\ x = y.
Proof.
  intros H1 H2 H3 H4 E.
  assert (E' : (c1 ++ " '" ++ f1 ++ "'") ++ String newline x = (c2 ++ " '" ++ f2 ++ "'") ++ String newline y) by (rewrite !str_app_assoc; exact E).
  apply (split_at [newline]) in E'; try (now apply newline_name); try (eexists newline, _; split; [reflexivity|now left]).
  destruct E' as [E' F]. injection F as ->.
  assert (G : ((c1 ++ " '") ++ f1) ++ String "'" "" = ((c2 ++ " '") ++ f2) ++ String "'" "") by (rewrite !str_app_assoc; exact E').
  apply (split_last ["'"]%char) in G; try (now left); try (intros d _ [|] b ?; discriminate).
  destruct G as [G _].
  assert (G' : (c1 ++ " ") ++ String "'" f1 = (c2 ++ " ") ++ String "'" f2).
  { rewrite !str_app_assoc in G. rewrite !str_app_assoc. exact G. }
  apply (split_last ["'"]%char) in G'; try (now left); try (apply (without_fewer _ ["'"; newline]%char); [cbn; tauto|assumption]).
  destruct G' as [G' ->]. apply (split_last [" "]%char) in G'; try (now left); try (intros d _ [|] b ?; discriminate). tauto.
Qed.
Lemma word_or_phrase c1 c2 f2 x y : without ["'"; newline]%char c1 -> without [newline] c2 -> without ["'"; newline]%char f2 ->
  c1 ++ lf ++ x = c2 ++ " '" ++ f2 ++ "'" ++ lf ++ y -> False.
Proof.
  intros H1 H3 H4 E.
  assert (E' : c1 ++ String newline x = (c2 ++ " '" ++ f2 ++ "'") ++ String newline y) by (rewrite !str_app_assoc; exact E).
  apply (split_at [newline]) in E'; try (now apply newline_name); try (eexists newline, _; split; [reflexivity|now left]);
    try (apply (without_fewer _ ["'"; newline]%char); [cbn; tauto|assumption]).
  destruct E' as [E' _]. apply (H1 "'"%char ltac:(now left) (c2 ++ " ") (f2 ++ "'")). rewrite E', !str_app_assoc. reflexivity.
Qed.

Lemma parts_inj l1 : Forall parts_free l1 -> parts_free (Phrase "" l1).
Proof.
  unfold parts_free. intros HF.
  assert (Hlf : forall x, lf ++ x = String newline x) by reflexivity.
  induction HF as [|o1 l1 Ho _ IH]; intros indent l2 r1 r2 Hc1 Hc2 Hr1 Hr2 E.
  - cbn [parts_lines append] in E. destruct (first_line indent l2 r2) as [(-> & H)|(x & H)]; [auto|]. exfalso.
    rewrite H in E. destruct Hr1 as [->|Hr1]; [destruct indent; discriminate|exact (Hr1 _ E)].
  - destruct l2 as [|o2 l2].
    { exfalso. change (parts_lines indent [] ++ r2) with r2 in E. destruct (first_line indent (o1 :: l1) r1) as [(H & _)|(x & H)]; [discriminate|].
      rewrite H in E. destruct Hr2 as [->|Hr2]; [destruct indent; discriminate|exact (Hr2 _ (eq_sym E))]. }
    inversion Hc1 as [|? ? C1 C2]; inversion Hc2 as [|? ? D1 D2]; subst. cbn [parts_lines] in E. rewrite !str_app_assoc in E.
    apply app_head in E. apply app_head in E.
    destruct C1 as [c1 f1 A1 A2|c1 k1 A1 A2], D1 as [c2 f2 B1 B2|c2 k2 B1 B2]; rewrite ?str_app_assoc in E.
    + apply word_line in E; auto. destruct E as (-> & -> & E). apply IH in E; auto. destruct E as [-> ->]. auto.
    + exfalso. symmetry in E. revert E. now apply word_or_phrase.
    + exfalso. revert E. now apply word_or_phrase.
    + apply (split_at [newline]) in E; try (apply (without_fewer _ ["'"; newline]%char); [cbn; tauto|assumption]);
        try (eexists newline, _; split; [reflexivity|now left]). destruct E as [-> E]. apply app_head in E.
      rewrite !olines_phrase in E.
      assert (Hleave : forall l r i2, leaves indent r -> (exists y, i2 = String "|" y) \/ (exists y, i2 = String " " y) -> leaves (indent ++ i2) (parts_lines indent l ++ r)).
      { intros l r i2 Hr Hi. destruct (first_line indent l r) as [(-> & ->)|(x & ->)]; [now apply leaves_deeper|].
        right. intros y Ey. rewrite str_app_assoc in Ey. apply app_head in Ey. destruct Hi as [(z & ->)|(z & ->)]; discriminate. }
      cbn [parts_free] in Ho.
      assert (Hlast : forall k l k' o l' r r', leaves indent r ->
        parts_lines (indent ++ "   ") k ++ r = parts_lines (indent ++ "|  ") k' ++ parts_lines indent (o :: l') ++ r' -> l = l').
      { intros k l k' o l' r r' Hr Ek. exfalso.
        assert (exists x a, parts_lines (indent ++ "|  ") k' ++ parts_lines indent (o :: l') ++ r' = indent ++ String a x /\ a <> " "%char) as (x & a & Hx & Ha).
        { destruct (first_line (indent ++ "|  ") k' (parts_lines indent (o :: l') ++ r')) as [(-> & H)|(y & H)]; rewrite H.
          - destruct (first_line indent (o :: l') r') as [(? & _)|(y & Hy)]; [discriminate|]. rewrite Hy. exists y, "+"%char. split; [reflexivity|discriminate].
          - rewrite str_app_assoc. eexists _, "|"%char. split; [reflexivity|discriminate]. }
        rewrite Hx in Ek. destruct (first_line (indent ++ "   ") k r) as [(-> & H)|(y & H)]; rewrite H in Ek.
        - destruct Hr as [->|Hr]; [destruct indent; discriminate|exact (Hr _ Ek)].
        - rewrite str_app_assoc in Ek. apply app_head in Ek. injection Ek as Ek _. congruence. }
      destruct l1 as [|p1 l1], l2 as [|p2 l2].
      * apply Ho in E; auto; try (apply (Hleave []); eauto). destruct E as [-> E]. auto.
      * exfalso. apply (Hlast k1 (p2 :: l2) k2 p2 l2 r1 r2) in E; auto. revert E. clear. intros E.
        apply (f_equal (@length _)) in E. cbn in E. lia.
      * exfalso. symmetry in E. apply (Hlast k2 (p1 :: l1) k1 p1 l1 r2 r1) in E; auto. revert E. clear. intros E.
        apply (f_equal (@length _)) in E. cbn in E. lia.
      * apply Ho in E; auto; try (apply Hleave; eauto). destruct E as [-> E]. apply IH in E; auto. destruct E as [E ->]. now rewrite E.
Qed.

Lemma parts_all o : parts_free o.
Proof. induction o as [c f|c l IH] using outline_ind'; [exact I|]. exact (parts_inj l IH). Qed.
