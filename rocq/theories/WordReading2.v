(** * Listing the trees of a sentence, and which of them is the first *)

From Coq Require Import ZArith String Ascii List Bool Arith Lia.
From Verif Require Import Py Effects Grammar Earley ParserSpec ParserFacts GrammarProofs InferenceModule Composer ComposerProofs2 QuestionSystem FragmentModel SirProofs WordReading.
Import ListNotations.
Local Open Scope nat_scope.
Local Open Scope string_scope.
Local Open Scope list_scope.

(** ** all shapes *)
Section Listing.
  Context {W : Type}.
  (** the word can be this quoted word; it can be a free word *)
  Variable is : W -> string -> bool.
  Variable free : W -> bool.
  (** the rules: what they are for and their constituents, without spaces *)
  Variable table : list (constituent * list constituent).

  Definition kind_eqb (a b : constituent) : bool :=
    String.eqb (k_pred a) (k_pred b) && Nat.eqb (length (k_args a)) (length (k_args b)) && ptype_eqb (k_type a) (k_type b).
  Fixpoint splits (ws : list W) : list (list W * list W) :=
    match ws with
    | [] => []
    | w :: ws' => match ws' with [] => [] | _ => ([w], ws') :: map (fun p => (w :: fst p, snd p)) (splits ws') end
    end.
  Fixpoint all_some {A} (l : list (option (list A))) : option (list A) :=
    match l with
    | [] => Some []
    | None :: _ => None
    | Some x :: l' => match all_some l' with Some y => Some (x ++ y) | None => None end
    end.
  Section Sequence.
    Variable one : constituent -> list W -> option (list (shape W)).
    Fixpoint shapes_all (cs : list constituent) (ws : list W) : option (list (list (shape W))) :=
      match cs with
      | [] => Some []
      | c :: cs' =>
          match cs' with
          | [] => option_map (map (fun s => [s])) (one c ws)
          | _ => all_some (map (fun p => match one c (fst p) with
                                         | None => None
                                         | Some [] => Some []
                                         | Some l => option_map (fun rest => flat_map (fun s => map (cons s) rest) l) (shapes_all cs' (snd p))
                                         end) (splits ws))
          end
      end.
  End Sequence.
  Fixpoint by_rules (one : constituent -> list W -> option (list (shape W))) (c : constituent) (ws : list W) (k : nat) (rules : list (constituent * list constituent)) : list (option (list (shape W))) :=
    match rules with
    | [] => []
    | (a, cs) :: rules' => (if kind_eqb a c then option_map (map (SNode k)) (shapes_all one cs ws) else Some []) :: by_rules one c ws (S k) rules'
    end.
  (** [None] when the limit is too low *)
  Fixpoint shapes (n : nat) (c : constituent) (ws : list W) : option (list (shape W)) :=
    match n with
    | O => None
    | S n' =>
        match k_type c with
        | PWord => Some match ws with [w] => if is w (k_pred c) then [SWord (k_pred c)] else [] | _ => [] end
        | PRegExp => Some match ws with [w] => if free w then [SToken w] else [] | _ => [] end
        | PRelation => all_some (by_rules (shapes n') c ws 0 table)
        end
    end.

  Lemma all_some_in {A} (l : list (option (list A))) y : all_some l = Some y -> forall x, In (Some x) l -> forall a, In a x -> In a y.
  Proof.
    revert y. induction l as [|[x|] l IH]; intros y H; cbn in H; try discriminate H; [intros x []|].
    destruct (all_some l) as [z|]; [|discriminate H]. injection H as <-. intros x' [[= ->]|H'] a Ha; apply in_app_iff; [now left|right]. now apply (IH z eq_refl x').
  Qed.
  Lemma all_some_each {A} (l : list (option (list A))) y o : all_some l = Some y -> In o l -> exists x, o = Some x.
  Proof.
    revert y. induction l as [|[x|] l IH]; intros y H Ho; cbn in H; try discriminate H; [destruct Ho|]. destruct Ho as [<-|Ho]; [eauto|].
    destruct (all_some l) as [z|]; [|discriminate H]. now apply (IH z).
  Qed.
  Lemma splits_in a b : a <> [] -> b <> [] -> In (a, b) (splits (a ++ b)).
  Proof.
    induction a as [|w a IH]; intros Na Nb; [congruence|]. cbn [app splits]. destruct a as [|w' a].
    - cbn [app]. destruct b; [congruence|]. now left.
    - destruct ((w' :: a) ++ b) eqn:E; [discriminate E|]. right. apply in_map_iff. exists (w' :: a, b). split; [reflexivity|]. apply IH; [discriminate|exact Nb].
  Qed.
  Lemma by_rules_in one c ws rules : forall k0 k a cs, nth_error rules k = Some (a, cs) -> kind_eqb a c = true ->
    In (option_map (map (SNode (k0 + k))) (shapes_all one cs ws)) (by_rules one c ws k0 rules).
  Proof.
    induction rules as [|(a' & cs') rules IH]; intros k0 k a cs Hk Ha; [now destruct k|]. destruct k as [|k].
    - injection Hk as -> ->. cbn [by_rules]. rewrite Ha, Nat.add_0_r. now left.
    - right. rewrite Nat.add_succ_r. apply (IH (S k0) k a cs Hk Ha).
  Qed.
End Listing.

Section Complete.
  Context {W : Type}.
  Variable is : W -> string -> bool.
  Variable free : W -> bool.
  Variable str : W -> string.
  Variable rules : list crule.
  Variable table : list (constituent * list constituent).
  Hypothesis Htable : forall k r cs, nth_error rules k = Some r -> spread_of (g_cons r) cs -> nth_error table k = Some (g_ante r, cs).
  Hypothesis Hante : forall k r, nth_error rules k = Some r -> k_type (g_ante r) = PRelation.
  Variable quotes : list string.
  Hypothesis Hquotes : forall k a cs c, nth_error table k = Some (a, cs) -> In c cs -> k_type c = PWord -> In (k_pred c) quotes.
  (** it looks at least as good as it is *)
  Variable ws : list W.
  Hypothesis Hword : forall w q, In w ws -> In q quotes -> lower (str w) = q -> is w q = true.
  Hypothesis Hfree : forall w, In w ws -> every_char word_char (str w) = true -> free w = true.

  Lemma kind_eqb_ok a b : same_kind a b -> kind_eqb a b = true.
  Proof. intros (E1 & E2 & E3). unfold kind_eqb. rewrite E1, E2, E3, String.eqb_refl, Nat.eqb_refl. now destruct (k_type b). Qed.
  Lemma reads_nonempty : (forall c us s t, reads rules c us s t -> us <> []) /\ (forall cs us ss ts, reads_all rules cs us ss ts -> us <> []).
  Proof.
    apply (reads_both rules); auto; try discriminate. intros. destruct ws1; [congruence|discriminate].
  Qed.
  Lemma reads_listed : (forall c us s t, reads rules c us s t -> forall vs n l, us = map str vs -> incl vs ws -> (k_type c = PWord -> In (k_pred c) quotes) -> shapes is free table n c vs = Some l ->
      exists s', s = shape_map str s' /\ In s' l) /\
    (forall cs us ss ts, reads_all rules cs us ss ts -> forall vs n l, us = map str vs -> incl vs ws -> (forall c, In c cs -> k_type c = PWord -> In (k_pred c) quotes) ->
      shapes_all (shapes is free table n) cs vs = Some l -> exists ss', ss = map (shape_map str) ss' /\ In ss' l).
  Proof.
    apply (reads_both rules).
    - intros c u r T Lw _ _ _ vs n l E Hi Hq H. destruct vs as [|w [|? ?]]; try discriminate E. injection E as ->. destruct n; [discriminate H|]. cbn [shapes] in H. rewrite T in H.
      rewrite (Hword w (k_pred c) (Hi w (or_introl eq_refl)) (Hq T) Lw) in H. injection H as <-. exists (SWord (k_pred c)). cbn. auto.
    - intros c u r T Nu Hu _ _ _ vs n l E Hi Hq H. destruct vs as [|w [|? ?]]; try discriminate E. injection E as ->. destruct n; [discriminate H|]. cbn [shapes] in H. rewrite T in H.
      rewrite (Hfree w (Hi w (or_introl eq_refl)) Hu) in H. injection H as <-. exists (SToken w). cbn. auto.
    - intros c us k r cs ss ts Hk Sk Hs _ IH vs n l E Hi Hq H. destruct n; [discriminate H|]. cbn [shapes] in H.
      pose proof (Htable k r cs Hk Hs) as Ht. assert (T : k_type c = PRelation) by (destruct Sk as (_ & _ & K); rewrite <- K; now apply (Hante k)).
      rewrite T in H. pose proof (by_rules_in (shapes is free table n) c vs table 0 k (g_ante r) cs Ht (kind_eqb_ok _ _ Sk)) as Hin. cbn [plus] in Hin.
      destruct (all_some_each _ _ _ H Hin) as (x & Ex). destruct (shapes_all (shapes is free table n) cs vs) as [y|] eqn:Ey; [|discriminate Ex]. cbn [option_map] in Ex, Hin.
      destruct (IH vs n y E Hi) as (ss' & Ess & Hy); [intros d Hd Td; exact (Hquotes k (g_ante r) cs d Ht Hd Td)|exact Ey|].
      exists (SNode k ss'). split; [cbn; now rewrite Ess|]. apply (all_some_in _ _ H _ Hin). apply in_map. exact Hy.
    - intros c us s t _ IH vs n l E Hi Hq H. cbn [shapes_all] in H. destruct (shapes is free table n c vs) as [y|] eqn:Ey; [|discriminate H]. injection H as <-.
      destruct (IH vs n y E Hi (Hq c (or_introl eq_refl)) Ey) as (s' & -> & Hy). exists [s']. split; [reflexivity|]. apply in_map_iff. now exists s'.
    - intros c cs us1 us2 s ss t ts r R1 IH1 _ _ _ R2 IH2 vs n l E Hi Hq H.
      symmetry in E. apply map_eq_app in E as (vs1 & vs2 & -> & E1 & E2). symmetry in E1, E2.
      assert (Hi1 : incl vs1 ws) by (intros x Hx; apply Hi, in_app_iff; now left). assert (Hi2 : incl vs2 ws) by (intros x Hx; apply Hi, in_app_iff; now right).
      pose proof (proj1 reads_nonempty _ _ _ _ R1) as N1. pose proof (proj2 reads_nonempty _ _ _ _ R2) as N2.
      assert (Ncs : cs <> []) by (inversion R2; discriminate).
      assert (Hin := splits_in vs1 vs2 ltac:(intros ->; now apply N1) ltac:(intros ->; now apply N2)).
      cbn [shapes_all] in H. destruct cs as [|c2 cs]; [congruence|]. cbv beta iota in H.
      set (f := fun p : list W * list W => match shapes is free table n c (fst p) with
                                         | None => None
                                         | Some [] => Some []
                                         | Some l => option_map (fun rest => flat_map (fun s => map (cons s) rest) l) (shapes_all (shapes is free table n) (c2 :: cs) (snd p))
                                         end) in *.
      pose proof (in_map f _ _ Hin) as Hf. destruct (all_some_each _ _ _ H Hf) as (x & Ex).
      rewrite Ex in Hf. unfold f in Ex. cbn [fst snd] in Ex.
      destruct (shapes is free table n c vs1) as [y1|] eqn:Ey1; [|discriminate Ex].
      destruct (IH1 vs1 n y1 E1 Hi1 (Hq c (or_introl eq_refl)) Ey1) as (s' & -> & Hy1).
      destruct y1 as [|y y1]; [destruct Hy1|].
      destruct (shapes_all (shapes is free table n) (c2 :: cs) vs2) as [y2|] eqn:Ey2; [|discriminate Ex]. injection Ex as Ex.
      destruct (IH2 vs2 n y2 E2 Hi2 (fun d Hd => Hq d (or_intror Hd)) Ey2) as (ss' & -> & Hy2).
      exists (s' :: ss'). split; [reflexivity|]. apply (all_some_in _ _ H x Hf). rewrite <- Ex. change (In (s' :: ss') (flat_map (fun s => map (cons s) y2) (y :: y1))). apply in_flat_map. exists s'. split; [exact Hy1|]. now apply in_map.
  Qed.
End Complete.
