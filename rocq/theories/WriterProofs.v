(** * The generator writes what the relation says *)

From Coq Require Import ZArith String List Bool Arith Lia.
From Verif Require Import Py PyFacts Effects EffectsFacts Solver Grammar Generator PropOutput WriterSpec.
Import ListNotations.
Local Open Scope string_scope.
Local Open Scope list_scope.

Scheme writes_mind := Induction for writes Sort Prop
  with writes_all_mind := Induction for writes_all Sort Prop
  with writes_one_mind := Induction for writes_one Sort Prop.
Combined Scheme writes_mutind from writes_mind, writes_all_mind, writes_one_mind.

Lemma joined_concat ss : String.concat "" ss = joined ss.
Proof.
  induction ss as [|s [|t ss] IH]; [reflexivity| |].
  - cbn. induction s; cbn; congruence.
  - change (String.concat "" (s :: t :: ss)) with (append s (append "" (String.concat "" (t :: ss)))).
    rewrite IH. reflexivity.
Qed.
Lemma all_text_some l : forall ss, all_text l = Some ss -> l = map VStr ss.
Proof.
  induction l as [|v l IH]; intros ss H; cbn in H; [injection H as <-; reflexivity|].
  destruct v; try discriminate. cbn in H. destruct (all_text l) as [t|]; [|discriminate].
  injection H as <-. cbn. f_equal. now apply IH.
Qed.
Lemma all_text_map ss : all_text (map VStr ss) = Some ss.
Proof. induction ss as [|s ss IH]; cbn; [reflexivity|]. now rewrite IH. Qed.

Lemma combined_words vs v : combined vs v -> combine_words vs = v.
Proof.
  intros H. unfold combine_words. destruct H as [ss|v Hv|vs v Hl Hi Hv].
  - rewrite all_text_map. now rewrite joined_concat.
  - destruct (all_text [v]) as [t|] eqn:E; [|reflexivity]. apply all_text_some in E.
    destruct t as [|x [|]]; try discriminate. injection E as ->. now destruct (Hv x).
  - destruct (all_text vs) as [t|] eqn:E.
    + apply all_text_some in E. subst. apply in_map_iff in Hi as (x & <- & _). now destruct (Hv x).
    + destruct vs as [|x [|y vs]]; [|cbn in Hl; lia|]; reflexivity.
Qed.

Section Writer.
  Context {W : Type}.
  Variable grammar : gindex (@wmean W).
  Variable slv : value -> binding -> M W sres.

  Lemma values_of c b vs : k_type c <> PWord -> Forall2 (argument_value b) (k_args c) vs -> consequent_values c b = vs.
  Proof.
    intros Ht. unfold consequent_values. induction 1 as [|x v xs vs H _ IH]; [reflexivity|]. cbn. f_equal; [|exact IH].
    destruct H as [H|[H ->]]; rewrite H; destruct (k_type c); congruence.
  Qed.
  Lemma first_value c b x more v : k_type c <> PWord -> k_args c = x :: more -> argument_value b x v ->
    exists rest, consequent_values c b = v :: rest.
  Proof.
    intros Ht Ha H. unfold consequent_values. rewrite Ha. cbn.
    destruct H as [H|[H ->]]; rewrite H; destruct (k_type c); try congruence; eauto.
  Qed.

  Lemma chosen_found used cat values w r b w' : chosen grammar slv used cat values w r b w' ->
    find_rule grammar slv used cat values w = (Ok (Some r, b, true), w').
  Proof.
    intros (pre & post & Hr & Hp & Hm & Hu).
    destruct (hash_in (g_hash r) used) eqn:E.
    - apply hash_in_iff in E. rewrite (Hu E) in Hr. eapply C91_used_rule_is_used_again; eauto.
    - eapply C90_first_matching_unused_rule; eauto. intros H. apply hash_in_iff in H. congruence.
  Qed.

  Lemma writer_complete :
    (forall used cat values optional w v used' w', writes grammar slv used cat values optional w v used' w' ->
       exists n0, forall n, n0 <= n -> generate_node grammar slv n used cat values optional w = (Ok (v, used'), w')) /\
    (forall r b used cs w vs used' w', writes_all grammar slv r b used cs w vs used' w' ->
       exists n0, forall n, n0 <= n -> forall words,
         consequents_loop (generate_node grammar slv n) r b used cs words w = (Ok (words ++ vs, used'), w')) /\
    (forall r b used c w v used' w', writes_one grammar slv r b used c w v used' w' ->
       exists n0, forall n, n0 <= n ->
         single_consequent (generate_node grammar slv n) r used c (consequent_values c b) w = (Ok (v, used'), w')).
  Proof.
    apply writes_mutind.
    - intros used cat values optional w r b w1 vs used' w2 v v' w3 Hc _ (n0 & IH) Hv Hp Hn.
      exists (S n0). intros [|n] Hle; [lia|]. cbn [generate_node]. unfold generate_node_F, bind at 1.
      rewrite (chosen_found _ _ _ _ _ _ _ Hc). unfold bind at 1. rewrite (IH n) by lia. cbn [app].
      rewrite (combined_words _ _ Hv). destruct (w_post (g_mean r)) as [f|].
      + unfold bind. now rewrite (Hp f eq_refl).
      + destruct (Hn eq_refl) as [-> ->]. reflexivity.
    - intros used cat values w H. exists 1. intros [|n] Hle; [lia|]. now rewrite C90_no_matching_rule.
    - intros r b used w. exists 0. intros n _ words. cbn. now rewrite app_nil_r.
    - intros r b used c cs w v vs used1 w1 used' w' _ (n1 & H1) _ (n2 & H2). exists (n1 + n2). intros n Hn words.
      cbn [consequents_loop]. unfold bind. rewrite H1 by lia. cbn [fst snd]. rewrite H2 by lia. now rewrite <- app_assoc.
    - intros r b used c w Ht. exists 0. intros n _. unfold single_consequent. now rewrite Ht.
    - intros r b used c w x more v Ht Hp Ha Hv. exists 0. intros n _.
      destruct (first_value c b x more v Ht Ha Hv) as (rest & ->). unfold single_consequent. rewrite Hp.
      destruct (k_type c); congruence || reflexivity.
    - intros r b used c w x more v Ht Hp Ha Hv. exists 0. intros n _.
      destruct (first_value c b x more v Ht Ha Hv) as (rest & ->). unfold single_consequent. rewrite Hp.
      destruct (k_type c); congruence || reflexivity.
    - intros r b used c w vs f v w' Ht Hp Ha Hf Hv. exists 0. intros n _.
      rewrite (values_of c b vs Ht Ha). unfold single_consequent. rewrite Hp, Hf.
      assert (E : bind (f vs) (fun v0 => ret (v0, used)) w = (Ok (v, used), w')) by (unfold bind; now rewrite Hv).
      destruct (k_type c); congruence || exact E.
    - intros r b used c w vs v used' w' Ht Hp Ha _ (n0 & IH). exists n0. intros n Hn.
      rewrite (values_of c b vs Ht Ha). unfold single_consequent.
      assert (E : (if String.eqb (k_pred c) "value" then match vs with v :: _ => ret (v, used) | [] => throw IndexErr end
        else if String.eqb (k_pred c) "text" then match vs with v :: _ => ret (VStr (py_str v), used) | [] => throw IndexErr end
        else if String.eqb (k_pred c) "format" then
            match w_format (g_mean r) with
            | Some f => bind (f vs) (fun v => ret (v, used))
            | None => throw TypeErr
            end
        else generate_node grammar slv n used (k_pred c) vs (k_optional c)) w = (Ok (v, used'), w')).
      { destruct (String.eqb_spec (k_pred c) "value") as [E|_]; [destruct Hp; rewrite E; cbn; auto|].
        destruct (String.eqb_spec (k_pred c) "text") as [E|_]; [destruct Hp; rewrite E; cbn; auto|].
        destruct (String.eqb_spec (k_pred c) "format") as [E|_]; [destruct Hp; rewrite E; cbn; auto|]. now apply IH. }
      destruct (k_type c); congruence || exact E.
  Qed.
End Writer.
