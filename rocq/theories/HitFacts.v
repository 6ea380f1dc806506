(** Positions that a click next to their place gives back. *)
From Coq Require Import String.
From Verif Require Import Base Str Grid Node Focus Autocomplete Spec NameMap Syntax Pratt Grammar SyntaxFind Render Layout SpecSyntax SpecPratt SpecRender SpecClick SpecStray SpecPlace
  BaseFacts GridFacts TreeFacts ParseFacts ParseTotal GrammarFacts FindFacts ShapeFacts RenderFacts LayoutFacts ClickFacts ClosestFacts NameMapFacts StrayFacts PlaceFacts.
Open Scope list_scope.
Open Scope nat_scope.
Set Implicit Arguments.
Unset Strict Implicit.

Lemma within_longer a d : within a d -> List.length (snd a) <= List.length (snd d) /\ (a = d \/ (el_row_index (fst (fst d)) <> None -> List.length (snd a) < List.length (snd d))).
Proof.
  induction 1 as [a|x path indices k c d E _ [Hl [<-|IH]]]; cbn [fst snd] in *.
  - split; [lia|now left].
  - split; [unfold add_row_index; destruct (el_row_index c); [rewrite app_length|]; lia|]. right. unfold add_row_index. destruct (el_row_index c); [|congruence]. intros _. rewrite app_length. cbn. lia.
  - assert (List.length indices <= List.length (add_row_index indices (el_row_index c))) by (unfold add_row_index; destruct (el_row_index c); [rewrite app_length|]; lia).
    split; [lia|]. right. intros H1. specialize (IH H1). lia.
Qed.
Lemma within_between a d : within a d -> forall d' r, within a d' -> snd (fst d') = snd (fst d) ++ r -> within d d'.
Proof.
  induction 1 as [a|x path indices k c d E W IH]; intros d' r H Hr; [exact H|]. inversion H as [?|? ? ? k' c' ? E' W']; subst.
  - exfalso. destruct (ClosestFacts.within_path W) as (q&Eq). cbn [fst snd] in *. rewrite Eq in Hr. apply (f_equal (@List.length _)) in Hr. rewrite !app_length in Hr. cbn in Hr. lia.
  - destruct (ClosestFacts.within_path W) as (q&Eq), (ClosestFacts.within_path W') as (q'&Eq'). cbn [fst snd] in *. rewrite Eq, Eq', <- !app_assoc in Hr. apply app_inv_head in Hr. cbn in Hr. injection Hr as -> Hr.
    rewrite E in E'. injection E' as <-. apply (IH _ r W'). cbn [fst snd]. rewrite Eq, Eq', Hr, <- !app_assoc. reflexivity.
Qed.
Lemma within_same a d : within a d -> snd (fst d) = snd (fst a) -> d = a.
Proof.
  destruct 1 as [a|x path indices k c d E W]; [reflexivity|]. cbn [fst snd]. intros H. destruct (ClosestFacts.within_path W) as (q&Eq). cbn [fst snd] in *. rewrite Eq, <- app_assoc in H.
  apply (f_equal (@List.length _)) in H. rewrite app_length in H. cbn in H. lia.
Qed.
Lemma prefixes A (a b c d : list A) : a ++ b = c ++ d -> (exists r, c = a ++ r) \/ (exists r, a = c ++ r).
Proof.
  revert c. induction a as [|x a IH]; intros c H; [left; now exists c|]. destruct c as [|y c]; [exact (or_intror (ex_intro _ (x :: a) eq_refl))|]. cbn in H. injection H as -> H.
  destruct (IH _ H) as [(r&->)|(r&->)]; [left|right]; exists r; reflexivity.
Qed.
(** The same place for two offsets of a row is a place in the same element. *)
Lemma same_element x p o o' place : offers (x, [], []) p o place -> offers (x, [], []) p o' place ->
  exists y path, within (x, [], []) (y, path, p) /\ ((y, path, p) = (x, [], []) \/ el_row_index y <> None) /\ has_caret y path o place /\ has_caret y path o' place.
Proof.
  intros (y&path&W&Hy&Hc) (y'&path'&W'&Hy'&Hc').
  assert (K : forall z qz oz z' qz' oz' r, within (x, [], []) (z, qz, p) -> has_caret z qz oz place -> within (x, [], []) (z', qz', p) -> has_caret z' qz' oz' place ->
    ((z', qz', p) = (x, [], []) \/ el_row_index z' <> None) -> qz' = qz ++ r -> z' = z /\ qz' = qz).
  { intros z qz oz z' qz' oz' r Wz _ Wz' _ [E|Hz] Hr.
    - injection E as -> -> ->. destruct qz; [|discriminate Hr]. pose proof (within_same Wz eq_refl) as E. injection E as ->. auto.
    - pose proof (within_between Wz Wz' Hr) as Wb. destruct (within_longer Wb) as [_ [E|L]]; [injection E as -> ->; auto|]. specialize (L Hz). cbn in L. lia. }
  pose proof (proj2 Hc) as C. pose proof (proj2 Hc') as C'. apply caret_path in C as (q&Eq). apply caret_path in C' as (q'&Eq').
  destruct (prefixes (eq_trans (eq_sym Eq) Eq')) as [(r&Hr)|(r&Hr)].
  - destruct (K _ _ _ _ _ _ r W Hc W' Hc' Hy' Hr) as [-> ->]. exists y, path. auto.
  - destruct (K _ _ _ _ _ _ r W' Hc' W Hc Hy Hr) as [-> ->]. exists y', path'. auto.
Qed.
Lemma no_twice xs xc row last k : script_row xs xc row = false -> twice xs xc row last k = [].
Proof. intros E. unfold twice. rewrite E. now destruct last. Qed.
Lemma reported_plain xs xc : forall p row last, (forall q row', row_get row q = Some row' -> q <> [] \/ last <> None -> script_row xs xc row' = false) -> reported_from xs xc row last p = p.
Proof.
  induction p as [|[k j] p IH]; intros row last H; cbn [reported_from]; [reflexivity|].
  assert (E : twice xs xc row last k = []) by (destruct last as [i|]; [apply no_twice; apply (H [] row eq_refl); right; discriminate|reflexivity]). rewrite E. cbn [app]. f_equal.
  destruct (nth_error row k) as [[v c|]|] eqn:Ek; try reflexivity. destruct (nth_error (gvalues c) j) as [cell|] eqn:Ej; [|reflexivity]. apply IH. intros q row' Hq _. apply (H ((k, j) :: q) row'); [|left; discriminate].
  cbn [row_get]. rewrite Ek. rewrite Ej. exact Hq.
Qed.

Section Hit.
Variable xs xc : N -> bool.
Notation g := (default_grammar xs xc).
Variable doc : InputRow.
Hypothesis Hwf : wf_row doc.
Hypothesis Hplain : forall p row, p <> [] -> row_get doc p = Some row -> script_row xs xc row = false.
Variable n : SyntaxNode.
Variable x : Element.
Hypothesis En : parse g doc = Ok n.
Hypothesis Hx : render_all default_renderers n = Ok x.
Lemma reported_same p : reported xs xc doc p = p.
Proof. unfold reported. refine (@reported_plain xs xc p doc None _). intros q row' Hq [Hne|H]; [exact (Hplain Hne Hq)|congruence]. Qed.
(** Offsets with the same place are inside of the same limit word. *)
Lemma same_offers p o o' place : offers (x, [], []) p o place -> offers (x, [], []) p o' place -> o < o' -> exists row n', row_get doc p = Some row /\ parse g row = Ok n' /\ inside_limit n' o o'.
Proof.
  intros H H' Hlt. destruct (same_element H H') as (y&path&W&Hy&Hc&Hc').
  destruct (within_part Hwf W (p := []) (or_introl (root_top Hwf En Hx))) as (path1&Ep1&Hp). cbn [fst snd app] in *. subst path1. set (p0 := drawn_row x path) in *.
  assert (T : top xs xc doc p0 p y).
  { destruct Hp as [T|[I|(row&m&ob&i&B&E1&E2&E3&_)]]; [exact T| |].
    - destruct Hy as [E|Hy]; [|pose proof (inner_index I); contradiction]. injection E as -> -> ->. exact (root_top Hwf En Hx).
    - exfalso. destruct B as (Er&_). destruct p0 as [|a l] eqn:Ep0; [discriminate E2|]. assert (script_row xs xc row = false) by (eapply Hplain; [|exact Er]; discriminate). congruence. }
  destruct T as (row&B&Epr&Ei). rewrite reported_same in Ei. rewrite <- Ei in B. exists row, (el_tree y). split; [apply B|]. split; [exact Epr|].
  pose proof B as (_&_&_&R&_). apply (render_mirror (Nat.lt_succ_diag_r _)) in R. destruct (proj1 (same_place default_renderers) _ _ _ _ R path o o' place (proj2 Hc) (proj2 Hc') Hlt) as (s&e&l&Hl&Hs&He&Hlen).
  destruct (leaves_row (limit_leaves Epr) Hl) as [Hl'|(w&Hw&->&->)]; [lia|]. exists w, s. auto.
Qed.
End Hit.

(** A row without scripts is not a script as a whole. *)
Section Plain.
Variable xs xc : N -> bool.
Notation g := (default_grammar xs xc).
Lemma script_container r v name k : In r (g_rules g) -> (rule_name r = sub_rule_name \/ rule_name r = sup_rule_name) -> r = RPostfix name k (TContainer v) -> v = Sub \/ v = Sup.
Proof.
  assert (F : forallb (fun r => negb (path_eqb (rule_name r) sub_rule_name || path_eqb (rule_name r) sup_rule_name) || match r with RPostfix _ _ (TContainer Sub) | RPostfix _ _ (TContainer Sup) => true | _ => false end) (g_rules g) = true) by (vm_compute; reflexivity).
  rewrite forallb_forall in F. intros Hr Hn ->. specialize (F _ Hr). apply orb_prop in F as [F|F].
  - exfalso. destruct Hn as [Hn|Hn]; rewrite Hn in F; vm_compute in F; discriminate F.
  - destruct v; try discriminate F; auto.
Qed.
Lemma no_script_row row : (forall v c, In (Container v c) row -> v <> Sub /\ v <> Sup) -> script_row xs xc row = false.
Proof.
  intros Hn. destruct (script_row xs xc row) eqn:Hs; [|reflexivity]. exfalso. unfold script_row in Hs. destruct (parse g row) as [n|] eqn:En; [|discriminate Hs]. apply (parse_shape (@default_no_empty_tokens xs xc)) in En.
  assert (Hname : syn_name n = sub_rule_name \/ syn_name n = sup_rule_name) by (apply orb_prop in Hs as [H|H]; apply path_eqb_eq in H; auto). clear Hs.
  assert (X : forall name, In name [syn_name (missing_at 0); error_missing_operator_name; error_unknown_token_name; whitespaces_rule_name] -> ~ (name = sub_rule_name \/ name = sup_rule_name)).
  { intros name Hin H. assert (F : forallb (fun name => negb (path_eqb name sub_rule_name || path_eqb name sup_rule_name)) [syn_name (missing_at 0); error_missing_operator_name; error_unknown_token_name; whitespaces_rule_name] = true) by (vm_compute; reflexivity).
    rewrite forallb_forall in F. specialize (F _ Hin). destruct H as [->| ->]; vm_compute in F; discriminate F. }
  remember 0 as z eqn:Ez. remember (List.length row) as len eqn:El. inv En.
  - exfalso. apply (X (syn_name (missing_at 0))); [now left|exact Hname].
  - exfalso. apply (X error_missing_operator_name); [cbn; auto|exact Hname].
  - exfalso. apply (X error_unknown_token_name); [cbn; auto|exact Hname].
  - exfalso. apply ops_in in H as (r&Hr&E). destruct r; inv E; apply script_rule in Hr as (?&?&Hr); [discriminate Hr|exact Hname].
  - exfalso. apply ops_in in H as (r&Hr&E). destruct r; inv E; apply script_rule in Hr as (?&?&Hr); [discriminate Hr|exact Hname|discriminate Hr|exact Hname].
  - apply ops_in in H as (r&Hr&E). destruct r as [| | | | |name k t]; inv E. cbn [op_name op_token syn_name] in *. destruct (script_rule Hr Hname) as (k'&v'&E'). cbn [rule_name] in E'. injection E' as -> ->.
    pose proof (script_container Hr Hname eq_refl) as Hv. inv H1. match goal with T : token _ _ _ _ _ _ |- _ => inv T end; [match goal with L : leaf_of _ _ _ _ |- _ => cbn in L; destruct L end|].
    match goal with E : nth_error row _ = Some (Container _ _) |- _ => destruct (Hn _ _ (nth_error_In _ _ E)) as [N1 N2] end. destruct Hv; contradiction.
  - exfalso. apply atoms_in in H. inv H0. unfold wrap in Hname. destruct before, after; try (apply (X whitespaces_rule_name); [cbn; auto|exact Hname]).
    cbn [syn_name] in Hname. apply script_rule in H as (k&v&H); [discriminate H|exact Hname].
Qed.
End Plain.
