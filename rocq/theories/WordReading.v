(** * Reading a sentence word by word

    For grammars whose rules have a space between any two constituents, and
    whose constituents are phrases, quoted words and [\w+]: every derivation of
    a sentence divides it between its words, so that the trees of a sentence can be
    listed by looking at its words only.  A word may then be replaced by any other
    that is no quoted word of the grammar. *)

From Coq Require Import ZArith String Ascii List Bool Arith Lia.
From Verif Require Import Py Effects Grammar Earley ParserSpec GrammarProofs ReprProofs LexerProofs RegexProofs RegexProofs2 InferenceModule Composer QuestionSystem FragmentModel SirSpec SirProofs CooperModel WikidataProofs3.
Import ListNotations.
Local Open Scope nat_scope.
Local Open Scope string_scope.
Local Open Scope list_scope.

(** ** rules with spaces *)
Inductive spread_of : list constituent -> list constituent -> Prop :=
| spread_one c : spread_of [c] [c]
| spread_more c s l cs : k_pred s = " " -> k_type s = PWord -> spread_of l cs -> spread_of (c :: s :: l) (c :: cs).
Fixpoint unspread (l : list constituent) : option (list constituent) :=
  match l with
  | [] => None
  | c :: l' =>
      match l' with
      | [] => Some [c]
      | s :: l'' => if String.eqb (k_pred s) " " && ptype_eqb (k_type s) PWord then option_map (cons c) (unspread l'') else None
      end
  end.
Lemma ptype_eqb_eq a b : ptype_eqb a b = true -> a = b.
Proof. destruct a, b; cbn; congruence. Qed.
Lemma unspread_ok : forall n l cs, length l <= n -> unspread l = Some cs -> spread_of l cs.
Proof.
  induction n as [|n IH]; intros [|c [|s l]] cs Hl H; cbn in Hl; try lia; try discriminate H.
  - injection H as <-. constructor.
  - cbn in H. destruct (String.eqb (k_pred s) " ") eqn:E1; [|discriminate H]. destruct (ptype_eqb (k_type s) PWord) eqn:E2; [|discriminate H]. cbn [andb] in H.
    destruct (unspread l) as [cs'|] eqn:E; [|discriminate H]. injection H as <-. apply String.eqb_eq in E1. apply ptype_eqb_eq in E2.
    constructor; auto. apply IH; [cbn in Hl; lia|exact E].
Qed.

Definition not_blank (c : ascii) : bool := negb (Ascii.eqb c " ").
Definition solid_word (u : string) : Prop := u <> "" /\ every_char not_blank u = true.
(** a constituent that a word or words can stand for *)
Definition readable (c : constituent) : Prop :=
  match k_type c with
  | PWord => solid_word (k_pred c)
  | PRegExp => k_pred c = word_pattern
  | PRelation => True
  end.
Definition readable_b (c : constituent) : bool :=
  match k_type c with
  | PWord => negb (String.eqb (k_pred c) "") && every_char not_blank (k_pred c)
  | PRegExp => String.eqb (k_pred c) word_pattern
  | PRelation => true
  end.
Lemma readable_b_ok c : readable_b c = true -> readable c.
Proof.
  unfold readable_b, readable, solid_word. destruct (k_type c); intros H; try exact I.
  all: try (apply andb_true_iff in H as (H1 & H2); split; [|exact H2]; intros E; rewrite E in H1; discriminate H1).
  all: try (now apply String.eqb_eq).
Qed.

Lemma lower_blank c : not_blank (lower_ascii c) = not_blank c.
Proof.
  destruct c as [b0 b1 b2 b3 b4 b5 b6 b7]. destruct b0, b1, b2, b3, b4, b5, b6, b7; reflexivity.
Qed.
Lemma lower_blanks u : every_char not_blank (lower u) = every_char not_blank u.
Proof. induction u as [|c u IH]; [reflexivity|]. cbn. now rewrite lower_blank, IH. Qed.
Lemma wordy_blank c : word_char c = true -> not_blank c = true.
Proof. unfold not_blank. destruct (Ascii.eqb_spec c " ") as [->|]; [discriminate|reflexivity]. Qed.

(** ** the words that are left *)
Definition after_word (us : list string) : string := match us with [] => "" | _ => String " " (spaced us) end.
Lemma spaced_cons u us : spaced (u :: us) = append u (after_word us).
Proof. destruct us; cbn; [now rewrite app_nil_s|reflexivity]. Qed.
(** what is read up to the middle of a word *)
Definition in_word (s : string) : Prop := exists c s', s = String c s' /\ not_blank c = true.

(** something without blanks, at the beginning of a word: it is the word or ends within it *)
Lemma within_word v u s tail : every_char not_blank v = true -> solid_word u -> append u tail = append v s -> (tail = "" \/ exists t, tail = String " " t) ->
  (v = u /\ s = tail) \/ in_word s.
Proof.
  revert u. induction v as [|c v IH]; intros u Hv (Nu & Hu) E Ht.
  - right. cbn in E. subst s. destruct u as [|c u]; [congruence|]. cbn in Hu. apply andb_true_iff in Hu as (Hc & _). exists c, (append u tail). auto.
  - destruct u as [|d u]; [congruence|]. cbn in E. injection E as -> E. cbn in Hv, Hu. apply andb_true_iff in Hv as (_ & Hv). apply andb_true_iff in Hu as (_ & Hu).
    destruct u as [|d' u].
    + cbn in E. destruct v as [|e v].
      * left. auto.
      * exfalso. cbn in Hv. apply andb_true_iff in Hv as (He & _). destruct Ht as [->|(t & ->)]; cbn in E; [discriminate|]. injection E as <- _. discriminate He.
    + destruct (IH (String d' u)) as [(-> & ->)|H]; [exact Hv|split; [discriminate|exact Hu]|exact E|exact Ht|left; auto|now right].
Qed.
Lemma after_form us : after_word us = "" \/ exists t, after_word us = String " " t.
Proof. destruct us; cbn; eauto. Qed.

(** ** shapes of trees: quoted words, free words and rules by their number *)
Inductive shape (W : Type) : Type :=
| SWord (w : string)
| SToken (w : W)
| SNode (k : nat) (ss : list (shape W)).
Arguments SWord {W}.
Arguments SToken {W}.
Arguments SNode {W}.
Fixpoint shape_map {A B} (f : A -> B) (s : shape A) : shape B :=
  match s with SWord w => SWord w | SToken w => SToken (f w) | SNode k ss => SNode k (map (shape_map f) ss) end.
Fixpoint tokens {W} (s : shape W) : nat :=
  match s with SWord _ => 0 | SToken _ => 1 | SNode _ ss => fold_right (fun s n => tokens s + n) 0 ss end.

Section Reading.
  Variable rules : list crule.

  (** [reads c ws s t]: [t] derives the words from [c], and has the shape *)
  Inductive reads : constituent -> list string -> shape string -> ctree -> Prop :=
  | reads_word c u r : k_type c = PWord -> lower u = k_pred c -> k_type (g_ante r) = PWord -> g_boost r = 0%Z -> g_mean r = scanned None ->
      reads c [u] (SWord (k_pred c)) (Node (k_pred c) [] (k_pred c) r)
  | reads_token c u r : k_type c = PRegExp -> u <> "" -> every_char word_char u = true -> k_type (g_ante r) = PRegExp -> g_boost r = 0%Z -> g_mean r = scanned (Some u) ->
      reads c [u] (SToken u) (Node (k_pred c) [] u r)
  | reads_rule c ws k r cs ss ts : nth_error rules k = Some r -> same_kind (g_ante r) c -> spread_of (g_cons r) cs -> reads_all cs ws ss ts ->
      reads c ws (SNode k ss) (Node (k_pred c) ts "" r)
  with reads_all : list constituent -> list string -> list (shape string) -> list ctree -> Prop :=
  | reads_last c ws s t : reads c ws s t -> reads_all [c] ws [s] [t]
  | reads_more c cs ws1 ws2 s ss t ts r : reads c ws1 s t -> k_type (g_ante r) = PWord -> g_boost r = 0%Z -> g_mean r = scanned None -> reads_all cs ws2 ss ts ->
      reads_all (c :: cs) (ws1 ++ ws2) (s :: ss) (t :: Node " " [] " " r :: ts).

  Variable grammar : list crule.
  Hypothesis Hrules : forall r, in_grammar grammar r -> In r rules.
  Hypothesis Hspread : forall r, In r rules -> exists cs, spread_of (g_cons r) cs /\ Forall readable cs.
  Hypothesis Hante : forall r, In r rules -> k_type (g_ante r) = PRelation.

  Section Text.
    Variable text : string.
    Notation deriv := (derives scanned py_match (in_grammar grammar) text).
    Notation deriv_all := (derives_all scanned py_match (in_grammar grammar) text).

    Definition word_wise (c : constituent) (i j : nat) (t : ctree) : Prop :=
      readable c -> forall us, us <> [] -> Forall solid_word us -> drop i text = spaced us ->
      (exists ws rest s, us = ws ++ rest /\ ws <> [] /\ drop j text = after_word rest /\ reads c ws s t) \/ in_word (drop j text).
    Definition all_word_wise (l : list constituent) (i j : nat) (ts : list ctree) : Prop :=
      forall cs, Forall readable cs ->
      (spread_of l cs -> forall us, us <> [] -> Forall solid_word us -> drop i text = spaced us ->
        (exists ws rest ss, us = ws ++ rest /\ ws <> [] /\ drop j text = after_word rest /\ reads_all cs ws ss ts) \/ in_word (drop j text)) /\
      (forall s l', l = s :: l' -> k_pred s = " " -> k_type s = PWord -> spread_of l' cs ->
        ~ in_word (drop i text) /\
        forall us, Forall solid_word us -> drop i text = after_word us ->
        (exists ws rest ss ts' r, us = ws ++ rest /\ ws <> [] /\ drop j text = after_word rest /\ ts = Node " " [] " " r :: ts' /\
           k_type (g_ante r) = PWord /\ g_boost r = 0%Z /\ g_mean r = scanned None /\ reads_all cs ws ss ts') \/ in_word (drop j text)).

    Lemma blank_read s i j t : k_pred s = " " -> k_type s = PWord -> deriv s i j t -> exists r, drop i text = String " " (drop j text) /\ t = Node " " [] " " r /\
      k_type (g_ante r) = PWord /\ g_boost r = 0%Z /\ g_mean r = scanned None.
    Proof.
      intros Hp Ht D. inversion D as [c i' v r T St Lw Le|c i' m v r T|c i' j' r ts Hr Sk]; subst.
      - rewrite Hp in *. assert (Ev : v = " ").
        { destruct v as [|a [|b v]]; try discriminate Lw. injection Lw as La. f_equal.
          assert (Ha : not_blank a = false) by (rewrite <- lower_blank, La; reflexivity). unfold not_blank in Ha. apply negb_false_iff in Ha. now apply Ascii.eqb_eq. }
        subst v. exists r. destruct Le as ((_ & _ & K) & M & B & _). split; [apply stands_span in St; exact St|]. rewrite K. auto.
      - congruence.
      - destruct Sk as (_ & _ & K). rewrite Ht in K. rewrite (Hante r (Hrules r Hr)) in K. discriminate K.
    Qed.

    Lemma derives_word_wise : (forall c i j t, deriv c i j t -> word_wise c i j t) /\ (forall l i j ts, deriv_all l i j ts -> all_word_wise l i j ts).
    Proof.
      apply derives_both.
      - (* a quoted word *)
        intros c i w r T St Lw Le Hc us Nu Hu E. unfold readable in Hc. rewrite T in Hc. destruct Hc as (Np & Hp). rewrite <- Lw, lower_blanks in Hp.
        apply stands_span in St. unfold span in St. destruct us as [|u us]; [congruence|]. inversion Hu as [|? ? Hu1 Hu2]; subst. rewrite E, spaced_cons in St.
        destruct (within_word w u _ _ Hp Hu1 St (after_form us)) as [(-> & Ed)|H]; [left|now right].
        exists [u], us, (SWord (k_pred c)). split; [reflexivity|]. split; [discriminate|]. split; [exact Ed|].
        destruct Le as ((_ & _ & K) & M & B & _). constructor; auto. congruence.
      - (* a free word *)
        intros c i m w r T Hm (rest & Em) Nw Le Hc us Nu Hu E. unfold readable in Hc. rewrite T in Hc. rewrite Hc in Hm.
        destruct (matched_word _ _ Hm) as (Hw & rest' & Es). subst m. rewrite every_app in Hw. apply andb_true_iff in Hw as (Hw & _).
        assert (St : drop i text = append w (drop (i + String.length w) text)).
        { rewrite <- drop_drop, Es, app_assoc_s, drop_app. reflexivity. }
        destruct us as [|u us]; [congruence|]. inversion Hu as [|? ? Hu1 Hu2]; subst. rewrite E, spaced_cons in St.
        destruct (within_word w u _ _ (every_weaken _ _ w wordy_blank Hw) Hu1 St (after_form us)) as [(-> & Ed)|H]; [left|now right].
        exists [u], us, (SToken u). split; [reflexivity|]. split; [discriminate|]. split; [exact Ed|].
        destruct Le as ((_ & _ & K) & M & B & _). constructor; auto. congruence.
      - (* a phrase *)
        intros c i j r ts Hr Sk _ IH Hc us Nu Hu E. destruct (Hspread r (Hrules r Hr)) as (cs & Hs & Hcs).
        destruct (proj1 (IH cs Hcs) Hs us Nu Hu E) as [(ws & rest & ss & Eu & Nw & Ed & R)|H]; [left|now right].
        destruct (In_nth_error rules r (Hrules r Hr)) as (k & Hk).
        exists ws, rest, (SNode k ss). split; [exact Eu|]. split; [exact Nw|]. split; [exact Ed|]. econstructor; eauto.
      - (* no constituents *)
        intros i cs _. split; [intros H; inversion H|]. intros s l' H. discriminate H.
      - (* more constituents *)
        intros c l i j k t ts D IHd Da IHa cs Hcs. split.
        + intros Hs us Nu Hu E. inversion Hs as [c'|c' s l' cs' Hp Ht Hs']; subst.
          * inversion Hcs as [|? ? Hc _]; subst. inversion Da; subst. destruct (IHd Hc us Nu Hu E) as [(ws & rest & s & Eu & Nw & Ed & R)|H]; [left|now right].
            exists ws, rest, [s]. split; [exact Eu|]. split; [exact Nw|]. split; [exact Ed|]. now constructor.
          * inversion Hcs as [|? ? Hc Hcs']; subst. destruct (proj2 (IHa cs' Hcs') s l' eq_refl Hp Ht Hs') as (Hno & Ha).
            destruct (IHd Hc us Nu Hu E) as [(ws & rest & sh & Eu & Nw & Ed & R)|H]; [|contradiction].
            assert (Hr : Forall solid_word rest) by (rewrite Eu in Hu; now apply Forall_app in Hu).
            destruct (Ha rest Hr Ed) as [(ws2 & rest2 & ss & ts' & r & Er & N2 & Ed2 & -> & K & B & M & R2)|H]; [left|now right].
            exists (ws ++ ws2), rest2, (sh :: ss). rewrite <- app_assoc, <- Er. split; [exact Eu|]. split; [destruct ws; [congruence|discriminate]|].
            split; [exact Ed2|]. now constructor.
        + intros s l' [= <- <-] Hp Ht Hs. destruct (blank_read c i j t Hp Ht D) as (r & Eb & -> & K & B & M). split.
          * intros (a & s' & Ea & Na). rewrite Eb in Ea. injection Ea as <- _. discriminate Na.
          * intros us Hu E. rewrite E in Eb. destruct us as [|u us]; [discriminate Eb|]. cbn [after_word] in Eb. injection Eb as Eb. symmetry in Eb.
            destruct (proj1 (IHa cs Hcs) Hs (u :: us) ltac:(discriminate) Hu Eb) as [(ws & rest & ss & Eu & Nw & Ed & R)|H]; [left|now right].
            exists ws, rest, ss, ts, r. auto 10.
    Qed.
  End Text.

  (** the whole text *)
  Lemma sentence_read us c t : us <> [] -> Forall solid_word us -> readable c ->
    derives scanned py_match (in_grammar grammar) (spaced us) c 0 (String.length (spaced us)) t -> exists s, reads c us s t.
  Proof.
    intros Nu Hu Hc D. assert (El : drop (String.length (spaced us)) (spaced us) = "").
    { rewrite <- (app_nil_s (spaced us)) at 2. apply drop_app. }
    destruct (proj1 (derives_word_wise (spaced us)) _ _ _ _ D Hc us Nu Hu eq_refl) as [(ws & rest & s & Eu & _ & Ed & R)|(a & s' & Ea & _)].
    - rewrite El in Ed. destruct rest as [|u rest]; [|discriminate Ed]. rewrite app_nil_r in Eu. subst ws. now exists s.
    - rewrite El in Ea. discriminate Ea.
  Qed.
End Reading.
Scheme reads_mut := Minimality for reads Sort Prop
  with reads_all_mut := Minimality for reads_all Sort Prop.
Combined Scheme reads_both from reads_mut, reads_all_mut.
