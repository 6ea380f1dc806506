(** Which spaces before sub- and superscripts can be drawn: the proofs. *)
From Coq Require Import String.
From Verif Require Import Base Str Grid Node Focus Autocomplete Spec NameMap Syntax Pratt Grammar Render SpecSyntax SpecPratt SpecRender SpecTokenEnd BaseFacts TreeFacts ParseFacts ParseTotal GrammarFacts ShapeFacts FindFacts SyntaxFind RenderFacts SpacesFacts LayoutFacts NameMapFacts.
Open Scope list_scope.
Open Scope nat_scope.
Set Implicit Arguments.
Unset Strict Implicit.

(** ** The nodes of a row *)
Lemma node_of_children name l s e m : node_of (mkSyntax name (Children l) s e) m -> m = mkSyntax name (Children l) s e \/ exists c, In c l /\ node_of c m.
Proof. intros H. inv H; [now left|]. cbn in H0. inv H0. eauto. Qed.
Lemma node_of_other n m : (forall l, syn_children n <> Children l) -> node_of n m -> m = n.
Proof. intros H H'. inv H'; [reflexivity|]. exfalso. eapply H; eauto. Qed.
Lemma ends_children name l s e j : ends_token (mkSyntax name (Children l) s e) j <-> exists c, In c l /\ ends_token c j.
Proof.
  split.
  - intros (m&a&H&R&L&T). apply node_of_children in H as [->|(c&Hc&H)]; [destruct T as [T _]; cbn in T; exfalso; eapply T; reflexivity|]. exists c. split; [exact Hc|]. exists m, a. auto.
  - intros (c&Hc&m&a&H&R&L&T). exists m, a. split; [|auto]. econstructor; [reflexivity|exact Hc|exact H].
Qed.
Lemma ends_self n j : (forall l, syn_children n <> Children l) -> ends_token n j <-> exists s, syn_range n = (s, j) /\ s < j /\ is_token n.
Proof.
  intros H. split.
  - intros (m&a&Hm&R&L&T). apply (node_of_other H) in Hm. subst m. eauto.
  - intros (s&R&L&T). exists n, s. split; [constructor|auto].
Qed.
Lemma ends_space s e j : ~ ends_token (space_leaf s e) j.
Proof. intros H. apply ends_self in H; [|discriminate]. destruct H as (a&_&_&_&_&_&H). now apply H. Qed.
Lemma ends_wrap before n after s e row x y x' y' j : spaces row x y before -> spaces row x' y' after -> ends_token (wrap before n after s e) j <-> ends_token n j.
Proof.
  intros Hb Ha.
  assert (B : forall m, before = Some m -> ~ ends_token m j) by (intros m ->; inv Hb; apply ends_space).
  assert (A : forall m, after = Some m -> ~ ends_token m j) by (intros m ->; inv Ha; apply ends_space).
  unfold wrap. destruct before as [b|], after as [a|]; try rewrite ends_children; try reflexivity; (split; [intros (c&Hc&H)|intros H; exists n; split; [cbn; tauto|exact H]]);
    cbn in Hc; repeat destruct Hc as [<-|Hc]; auto; try contradiction; exfalso; first [now apply (B _ eq_refl)|now apply (A _ eq_refl)].
Qed.
Lemma ends_unwrap before n after s e row x y x' y' j : spaces row x y before -> spaces row x' y' after -> ends_token (wrap before n after s e) j -> ends_token n j.
Proof. intros Hb Ha. eapply ends_wrap; eauto. Qed.
Section Ranges.
Variable g : Grammar.
(** Where the tokens of a part end *)
Lemma ends_range :
  (forall row s e n, tree g row s e n -> forall j, ends_token n j -> s < j <= e) /\
  (forall row s e t c, token g row s e t c -> forall name j, ends_token (mkSyntax name c s e) j -> s < j <= e) /\
  (forall row s e name t n, wrapped g row s e name t n -> forall j, ends_token n j -> s < j <= e) /\
  (forall row s e t n, scripted g row s e t n -> forall j, ends_token n j -> s < j <= e) /\
  (forall cells nodes, cells_tree g cells nodes -> True).
Proof.
  apply tree_mutind; auto.
  - intros row s j H. apply ends_children in H as (c&[]&_).
  - intros row s m e a b Ta IHa Tb IHb j H. apply tree_le in Ta, Tb. apply ends_children in H as (c&Hc&H). cbn in Hc. destruct Hc as [<-|[<-|[<-|[]]]].
    + apply IHa in H. lia.
    + apply ends_children in H as (c&[]&_).
    + apply IHb in H. lia.
  - intros row s x E U j H. apply ends_self in H; [|discriminate]. destruct H as (a&R&L&_). cbn in R. inv R. lia.
  - intros row s m e op v a Hop Tv IHv Ta IHa j H. apply tree_le in Ta. apply scripted_range in Tv as [_ Tv]. apply ends_children in H as (c&Hc&H). cbn in Hc. destruct Hc as [<-|[<-|[]]]; [apply IHv in H|apply IHa in H]; lia.
  - intros row s m k e op a v b Hop Ta IHa Tv IHv Tb IHb j H. apply tree_le in Ta, Tb. apply scripted_range in Tv as [_ Tv]. apply ends_children in H as (c&Hc&H). cbn in Hc.
    destruct Hc as [<-|[<-|[<-|[]]]]; [apply IHa in H|apply IHv in H|apply IHb in H]; lia.
  - intros row s m e op a v Hop Ta IHa Tv IHv j H. apply tree_le in Ta. apply wrapped_range in Tv as [_ Tv]. apply ends_children in H as (c&Hc&H). cbn in Hc. destruct Hc as [<-|[<-|[]]]; [apply IHa in H|apply IHv in H]; lia.
  - intros. apply ends_self in H; [|discriminate]. destruct H as (a&R&L&_). cbn in R. inv R. lia.
  - intros. apply ends_self in H0; [|discriminate]. destruct H0 as (a&R&L&_). cbn in R. inv R. lia.
  - intros row s m a b c Ea Tc IH Eb name j H. apply tree_le in Tc. apply ends_children in H as (d&Hd&H). cbn in Hd. destruct Hd as [<-|[<-|[<-|[]]]].
    + apply ends_self in H; [|discriminate]. destruct H as (x&R&L&_). cbn in R. inv R. lia.
    + apply IH in H. lia.
    + apply ends_self in H; [|discriminate]. destruct H as (x&R&L&_). cbn in R. inv R. lia.
  - intros row s a b Ea Eb name j H. apply ends_children in H as (d&Hd&H). cbn in Hd. destruct Hd as [<-|[<-|[]]]; apply ends_self in H; try discriminate; destruct H as (x&R&L&_); cbn in R; inv R; lia.
  - intros row s a b e name t c before after Sb Tc IH Sa Hb j H. eapply ends_unwrap in H; [|exact Sb|exact Sa]. apply IH in H. apply spaces_range in Sa as [Sa _]. apply spaces_range in Sb as [Sb _]. lia.
  - intros row s m e t n v name op Hv Tn IHn To IHo j H. apply scripted_range in Tn as [_ Tn]. apply wrapped_range in To as [_ To]. apply ends_children in H as (c&Hc&H). cbn in Hc.
    destruct Hc as [<-|[<-|[]]]; [apply IHn in H|apply IHo in H]; lia.
Qed.
(** There is no space where a part ends together with a token. *)
Lemma ends_solid row s e n : tree g row s e n -> ends_token n e -> ~ blank row e.
Proof.
  assert (W : forall row s e name t n, wrapped g row s e name t n -> ~ blank row e) by (intros ? ? ? ? ? ? W; now inv W).
  assert (Sc : forall row s e t n, scripted g row s e t n -> ~ blank row e) by (intros ? ? ? ? ? Sc; inv Sc; eauto).
  induction 1 as [row s|row s m e a b Ta IHa Tb IHb|row s x E U|row s m e op v a Hop Tv Ta IHa|row s m k e op a v b Hop Ta IHa Tv Tb IHb|row s m e op a v Hop Ta IHa Tv|row s e name t n Hr Tn]; intros H; eauto.
  - apply ends_children in H as (c&[]&_).
  - apply ends_children in H as (c&Hc&H). cbn in Hc. destruct Hc as [<-|[<-|[<-|[]]]]; auto.
    + pose proof (proj1 ends_range _ _ _ _ Ta _ H). apply tree_le in Tb. assert (m = e) as -> by lia. auto.
    + apply ends_children in H as (c&[]&_).
  - apply ends_self in H; [|discriminate]. destruct H as (a&_&_&_&_&H&_). now elim H.
  - apply ends_children in H as (c&Hc&H). cbn in Hc. destruct Hc as [<-|[<-|[]]]; auto.
    pose proof (proj1 (proj2 (proj2 (proj2 ends_range))) _ _ _ _ _ Tv _ H). apply tree_le in Ta. assert (m = e) as -> by lia. eauto.
  - apply ends_children in H as (c&Hc&H). cbn in Hc. apply scripted_range in Tv as R. destruct R as [_ R]. pose proof (tree_le Tb) as Lb. destruct Hc as [<-|[<-|[<-|[]]]]; auto.
    + pose proof (proj1 ends_range _ _ _ _ Ta _ H). lia.
    + pose proof (proj1 (proj2 (proj2 (proj2 ends_range))) _ _ _ _ _ Tv _ H). assert (k = e) as -> by lia. eauto.
Qed.
End Ranges.

(** ** Spaces after tokens are drawn *)
Section Sufficient.
Variable rs : Renderers.
Variable g : Grammar.
Hypothesis F : fits rs g.
Lemma bracket_open_leaf p j : ~ ends_token (op_leaf [40%N] p) j.
Proof. intros H. apply ends_self in H; [|discriminate]. destruct H as (a&_&_&_&H&_). now apply H. Qed.
Hypothesis Open : forall x, opens g x -> x = [40%N].
Definition row_fine (row : InputRow) : Prop := nonempty_grids row /\ two_cells row /\ no_space_after_scripts row.
Definition cells_render (n : SyntaxNode) : Prop := forall m l w, node_of n m -> syn_children m = NewRows (mkGrid l w) -> Forall (renders rs) l.
Definition spaced (row : InputRow) (s e : nat) (n : SyntaxNode) : Prop := forall j k, s <= j -> k < e -> is_script row k -> spaces_before row j k -> ends_token n j.
Lemma cells_child name l s e c : cells_render (mkSyntax name (Children l) s e) -> In c l -> cells_render c.
Proof. intros H Hc m l' w Hm E. eapply H; [|exact E]. econstructor; [reflexivity|exact Hc|exact Hm]. Qed.
Lemma cells_wrap before n after s e : cells_render (wrap before n after s e) -> cells_render n.
Proof. unfold wrap. destruct before, after; auto; intros H; eapply cells_child; try exact H; cbn; tauto. Qed.
Lemma spaced_child row s e name l x y c : spaced row s e (mkSyntax name (Children l) s e) -> s <= x -> y <= e ->
  (forall c' j, In c' l -> x <= j < y -> blank row j -> ends_token c' j -> ends_token c j) -> spaced row x y c.
Proof.
  intros H Hx Hy Hc j k Lj Lk Hs Hb. destruct (H j k) as (m&a&Hm&R); [lia|lia|exact Hs|exact Hb|]. destruct Hb as (L&A&_).
  assert (E : ends_token (mkSyntax name (Children l) s e) j) by (exists m, a; auto). apply ends_children in E as (c'&Hc'&E). eapply Hc; eauto; [lia|]. apply A. lia.
Qed.
Lemma script_run row s a before r v : settled g row s -> In r (g_rules g) -> rule_token r = Some (TContainer v) -> (v = Sub \/ v = Sup) ->
  spaces row s a before -> (exists d, nth_error row a = Some (Container v d)) -> before = None \/ (is_script row a /\ spaces_before row s a /\ blank row s).
Proof.
  intros S Hr Ht Hv Sb (d&Ed). inv Sb; [now left|]. right. assert (B : blank row s) by (apply H0; lia). specialize (S B).
  assert (Ha : ~ blank row a) by (unfold blank; congruence). split; [exists v, d; auto|]. split; [|exact B].
  split; [exact H|]. split; [exact H0|]. intros i -> Bi. destruct (S i eq_refl) as (x&Ex&[O|U]).
  - apply (fit_open F O). unfold is_space in Bi. rewrite Ex in Bi. now inv Bi.
  - apply (U r (TContainer v) a (Some (space_leaf i a)) Hr Ht); [|exact Ha|exists d; exact Ed]. constructor; [lia|]. intros k Hk. destruct (Nat.eq_dec k i) as [->|]; [exact Bi|apply H0; lia].
Qed.
Lemma scripted_solid row s e t n : scripted g row s e t n -> ~ blank row e.
Proof. intros W. inv W; match goal with X : wrapped _ _ _ _ _ _ _ |- _ => now inv X end. Qed.
Lemma script_inside row m e name v n x : wrapped g row m e name (TContainer v) n -> (forall i, m <= i < x -> is_space row i) -> x < e.
Proof.
  intros W H. inv W. apply spaces_range in H0 as [L _]. apply spaces_range in H2 as [L' _]. destruct (le_lt_dec e x) as [G|G]; [|exact G]. exfalso.
  inv H1; [contradiction|]. assert (X : is_space row a) by (apply H; lia). unfold is_space in X. congruence.
Qed.
Theorem spaced_renders :
  (forall row s e n, tree g row s e n -> row_fine row -> cells_render n -> spaced row s e n -> settled g row s -> renders rs n) /\
  (forall row s e t c, token g row s e t c -> row_fine row -> forall name, cells_render (mkSyntax name c s e) -> spaced row s e (mkSyntax name c s e) -> usable g t ->
     content rs t s e c /\ (forall v, t = TContainer v -> exists d, nth_error row s = Some (Container v d))) /\
  (forall row s e name t n, wrapped g row s e name t n -> row_fine row -> cells_render n -> spaced row s e n -> usable g t -> inside rs row s e name t n) /\
  (forall row s e t n, scripted g row s e t n -> row_fine row -> cells_render n -> spaced row s e n -> usable g t -> not_container t -> renders rs n) /\
  (forall cells nodes, cells_tree g cells nodes -> True).
Proof.
  pose proof (proj1 (ends_range g)) as RT. pose proof (proj1 (proj2 (proj2 (ends_range g)))) as RW. pose proof (proj1 (proj2 (proj2 (proj2 (ends_range g))))) as RS.
  apply tree_mutind.
  - intros. now apply renders_missing with (g := g).
  - intros row s m e a b Ta IHa Tb IHb H C Sp S. pose proof (tree_le Ta). pose proof (tree_le Tb). apply renders_simple with (b := false); [apply (fit_juxt F)| |cbn; lia]. repeat constructor; [|now apply renders_missing with (g := g)|].
    + apply IHa; auto; [eapply cells_child; [exact C|cbn; tauto]|]. eapply spaced_child; [exact Sp|lia|lia|]. intros c j Hc Hj B E. cbn in Hc. destruct Hc as [<-|[<-|[<-|[]]]]; auto.
      * apply ends_children in E as (c&[]&_).
      * apply (RT _ _ _ _ Tb) in E. lia.
    + apply IHb; auto; [eapply cells_child; [exact C|cbn; tauto]| |now apply (tree_settled Ta)]. eapply spaced_child; [exact Sp|lia|lia|]. intros c j Hc Hj B E. cbn in Hc. destruct Hc as [<-|[<-|[<-|[]]]]; auto.
      * pose proof (RT _ _ _ _ Ta _ E). assert (j = m) as -> by lia. elim (ends_solid Ta E B).
      * apply ends_children in E as (c&[]&_).
  - intros row s x _ _ _ _ _ _. eapply renders_text. apply (fit_unknown F).
  - intros row s m e op v a Hop Tv IHv Ta IHa H C Sp S. apply op_rule in Hop as (r&Hr&E). destruct r; inv E. pose proof (rule_usable Hr eq_refl) as U. apply (fit_rules F) in Hr as [Hc Hn]. cbn [op_token op_name] in *.
    pose proof (scripted_settled Tv) as Sm. pose proof (scripted_solid Tv) as Bm. pose proof (proj2 (scripted_range Tv)). pose proof (tree_le Ta).
    apply renders_simple with (b := false); auto; cbn; try lia; repeat constructor.
    + apply IHv; auto; [eapply cells_child; [exact C|cbn; tauto]|]. eapply spaced_child; [exact Sp|lia|lia|]. intros c j Hc' Hj B E. cbn in Hc'. destruct Hc' as [<-|[<-|[]]]; auto. apply (RT _ _ _ _ Ta) in E. lia.
    + apply IHa; auto; [eapply cells_child; [exact C|cbn; tauto]|]. eapply spaced_child; [exact Sp|lia|lia|]. intros c j Hc' Hj B E. cbn in Hc'. destruct Hc' as [<-|[<-|[]]]; auto. apply (RS _ _ _ _ _ Tv) in E. assert (j = m) as -> by lia. contradiction.
  - intros row s m k e op a v b Hop Ta IHa Tv IHv Tb IHb H C Sp S. pose proof (scripted_settled Tv) as Sm. pose proof (scripted_solid Tv) as Bm. pose proof (proj2 (scripted_range Tv)). pose proof (tree_le Ta). pose proof (tree_le Tb).
    assert (Ka : renders rs a).
    { apply IHa; auto; [eapply cells_child; [exact C|cbn; tauto]|]. eapply spaced_child; [exact Sp|lia|lia|]. intros c j Hc' Hj B E. cbn in Hc'. destruct Hc' as [<-|[<-|[<-|[]]]]; auto; [apply (RS _ _ _ _ _ Tv) in E|apply (RT _ _ _ _ Tb) in E]; lia. }
    assert (Kb : renders rs b).
    { apply IHb; auto; [eapply cells_child; [exact C|cbn; tauto]|]. eapply spaced_child; [exact Sp|lia|lia|]. intros c j Hc' Hj B E. cbn in Hc'. destruct Hc' as [<-|[<-|[<-|[]]]]; auto.
      - apply (RT _ _ _ _ Ta) in E. lia.
      - apply (RS _ _ _ _ _ Tv) in E. assert (j = k) as -> by lia. contradiction. }
    assert (Kv : usable g (op_token op) -> not_container (op_token op) -> renders rs v).
    { intros U Hn. apply IHv; auto; [eapply cells_child; [exact C|cbn; tauto]|]. eapply spaced_child; [exact Sp|lia|lia|]. intros c j Hc' Hj B E. cbn in Hc'. destruct Hc' as [<-|[<-|[<-|[]]]]; auto.
      - pose proof (RT _ _ _ _ Ta _ E). assert (j = m) as -> by lia. elim (ends_solid Ta E B).
      - apply (RT _ _ _ _ Tb) in E. lia. }
    apply op_rule in Hop as (r&Hr&E). destruct r; inv E; pose proof (rule_usable Hr eq_refl) as U; apply (fit_rules F) in Hr as [Hc Hn]; cbn [op_token op_name] in *;
      (apply renders_simple with (b := false); auto; cbn; try lia; repeat constructor; auto).
  - intros row s m e op a v Hop Ta IHa Tv IHv H C Sp S. apply op_rule in Hop as (r&Hr&E). destruct r; inv E. pose proof (rule_usable Hr eq_refl) as U. pose proof Hr as Hr'. apply (fit_rules F) in Hr. cbn [op_token op_name] in *.
    pose proof (tree_le Ta). pose proof (proj2 (wrapped_range Tv)) as Rv.
    assert (Ka : renders rs a).
    { apply IHa; auto; [eapply cells_child; [exact C|cbn; tauto]|]. eapply spaced_child; [exact Sp|lia|lia|]. intros c j Hc' Hj B E. cbn in Hc'. destruct Hc' as [<-|[<-|[]]]; auto. apply (RW _ _ _ _ _ _ Tv) in E. lia. }
    assert (Kv : inside rs row m e operator_rule_name t v).
    { apply IHv; auto; [eapply cells_child; [exact C|cbn; tauto]|]. eapply spaced_child; [exact Sp|lia|lia|]. intros c j Hc' Hj B E. cbn in Hc'. destruct Hc' as [<-|[<-|[]]]; auto.
      pose proof (RT _ _ _ _ Ta _ E). assert (j = m) as -> by lia. elim (ends_solid Ta E B). }
    assert (K : not_container t -> get_renderer rs name = Some (RenderSimple false) -> renders rs (mkSyntax name (Children [a; v]) s e)).
    { intros Hc Hn. apply renders_simple with (b := false); auto; cbn; try lia; repeat constructor; auto. eapply inside_op; eauto. }
    destruct t; try (now apply K). destruct Hr as [Hv Hr]. destruct H as (_&_&A). pose proof (tree_settled Ta S) as Sm.
    eapply inside_script; [exact F|exact A| |exact Hv|exact Hr|exact Ka|exact Kv]. intros x before Sb Hd. destruct (script_run Sm Hr' eq_refl Hv Sb Hd) as [|(Hs&R&B)]; [assumption|]. exfalso.
    assert (Lx : x < e) by (eapply script_inside; [exact Tv|apply R]).
    assert (E : ends_token (mkSyntax name (Children [a; v]) s e) m) by (eapply Sp; eauto; lia).
    apply ends_children in E as (c&Hc'&E). cbn in Hc'. destruct Hc' as [<-|[<-|[]]]; [elim (ends_solid Ta E B)|]. apply (RW _ _ _ _ _ _ Tv) in E. lia.
  - intros row s e name t n Hr Tn IH H C Sp _. apply atoms_in in Hr. pose proof (rule_usable Hr eq_refl) as U. eapply inside_atom; eauto.
  - intros row s e t ty symbols l Hl _ _ _ _ _ _ _ name _ _ _. split; [destruct t; easy|]. intros v ->. easy.
  - intros row s v cells w nodes En Hw Hm Hc IH H name C Sp _. split; [|intros v' E; inv E; eauto]. cbn [content]. exists v. pose proof (cells_tree_length Hc) as L. destruct H as (H1&H2&_).
    repeat split; auto.
    + apply H1 in En. cbn in En. rewrite L. destruct cells; [congruence|cbn; lia].
    + intros Hv. rewrite L. now apply (H2 _ _ _ En).
    + eapply C; [constructor|reflexivity].
  - intros row s m a b c Ea Tc IH Eb H name C Sp (r&Hr&Ht). split; [|discriminate]. cbn. repeat split; try lia. pose proof (tree_le Tc). assert (O : opens g a) by (exists r, b; auto).
    repeat constructor; auto; try (now apply renders_op_leaf with (g := g)). apply IH; [exact H|eapply cells_child; [exact C|cbn; tauto]| |].
    + eapply spaced_child; [exact Sp|lia|lia|]. intros c' j Hc' Hj B E. cbn in Hc'. destruct Hc' as [<-|[<-|[<-|[]]]]; auto.
      * apply Open in O. subst a. elim (bracket_open_leaf E).
      * apply ends_self in E; [|discriminate]. destruct E as (x&R&L&_). cbn in R. inv R. lia.
    + intros _ i E. inv E. exists a. split; [exact Ea|]. now left.
  - intros row s a b _ _ _ name _ _ _. split; [|discriminate]. cbn. repeat split; try lia. repeat constructor; auto; now apply renders_op_leaf with (g := g).
  - intros row s a b e name t c before after Sb Tc IH Sa Hb H C Sp U. apply cells_wrap in C.
    assert (Sp' : spaced row a b (mkSyntax name c a b)).
    { intros j k Lj Lk Hs R. pose proof (proj1 (spaces_range Sb)). pose proof (proj1 (spaces_range Sa)). eapply ends_unwrap; [exact Sb|exact Sa|]. eapply Sp; eauto; lia. }
    destruct (IH H _ C Sp' U) as [C' Hc]. exists a, b, c, before, after. auto.
  - intros row s e t n _ IH H C Sp U Ht. eapply inside_op; eauto.
  - intros row s m e t n v name op Hv Tn IHn To IHo H C Sp U Ht. pose proof (proj2 (scripted_range Tn)). pose proof (proj2 (wrapped_range To)) as Rv.
    assert (Hv' : v = Sub \/ v = Sup) by (destruct Hv as [[-> _]|[-> _]]; auto).
    assert (Hn : script_renderer (get_renderer rs name)) by (destruct Hv as [[_ ->]|[_ ->]]; [left; apply (fit_sub F)|right; apply (fit_sup F)]).
    assert (Kn : renders rs n).
    { apply IHn; auto; [eapply cells_child; [exact C|cbn; tauto]|]. eapply spaced_child; [exact Sp|lia|lia|]. intros c j Hc' Hj B E. cbn in Hc'. destruct Hc' as [<-|[<-|[]]]; auto. apply (RW _ _ _ _ _ _ To) in E. lia. }
    assert (Ko : inside rs row m e operator_rule_name (TContainer v) op).
    { apply IHo; auto; [eapply cells_child; [exact C|cbn; tauto]| |exact I]. eapply spaced_child; [exact Sp|lia|lia|]. intros c j Hc' Hj B E. cbn in Hc'. destruct Hc' as [<-|[<-|[]]]; auto.
      apply (RS _ _ _ _ _ Tn) in E. assert (j = m) as -> by lia. elim (scripted_solid Tn B). }
    destruct H as (_&_&A). eapply inside_script; [exact F|exact A| |exact Hv'|exact Hn|exact Kn|exact Ko].
    intros x before Sb _. inversion Sb as [|? ? L B]; [reflexivity|]. exfalso. apply (scripted_solid Tn). apply B. lia.
  - exact I.
  - auto.
Qed.
End Sufficient.

(** ** What is drawn has spaces only after tokens *)
Section Needed.
Variable rs : Renderers.
Variable g : Grammar.
Hypothesis F : fits rs g.
Variable ends : str -> Prop.
Hypothesis Ends : forall r t, In r (g_rules g) -> rule_token r = Some t -> token_ends g ends t.
Hypothesis Scripts : forall v, v = Sub \/ v = Sup -> exists r, In r (g_rules g) /\ rule_token r = Some (TContainer v).
Definition good_name (name : PathIdentifier) : Prop := name <> error_unknown_token_name /\ name <> whitespace_rule_name.
Hypothesis Names : forall name t, In (RAtom name t) (g_rules g) -> good_name name.
Hypothesis Leaves : forall t symbols l, usable g t -> leaf_of g t symbols l -> symbols <> [[40%N]].
Hypothesis Close : forall r t a b, In r (g_rules g) -> rule_token r = Some t -> t = TBrackets a b \/ t = TEmptyBrackets a b -> b <> [40%N].
Lemma operator_good : good_name operator_rule_name.
Proof. split; discriminate. Qed.

Lemma token_ends_here row a b t c name : usable g t -> good_name name -> token g row a b t c -> ends_token (mkSyntax name c a b) b.
Proof.
  intros U [N1 N2] H.
  assert (K : forall l m, l <> [40%N] -> ends_token (op_leaf l m) (S m)).
  { intros l m Hl. apply ends_self; [discriminate|]. exists m. split; [reflexivity|]. split; [lia|]. repeat split; try discriminate. cbn. congruence. }
  destruct H as [row s e t ty symbols l Hl Hlt _ _ Hr Len _|row s v cells w nodes En _ _ _|row s m x y c Ex _ Ey|row s x y Ex Ey].
  - apply ends_self; [discriminate|]. exists s. split; [reflexivity|]. split; [exact Hlt|]. repeat split; auto; try discriminate. cbn. pose proof (Leaves U Hl). congruence.
  - apply ends_self; [discriminate|]. exists s. split; [reflexivity|]. split; [lia|]. repeat split; auto; discriminate.
  - destruct U as (r&Hr&Ht). apply ends_children. exists (op_leaf y m). split; [cbn; tauto|]. apply K. eapply Close; eauto.
  - destruct U as (r&Hr&Ht). apply ends_children. exists (op_leaf y (S s)). split; [cbn; tauto|]. apply K. eapply Close; eauto.
Qed.
Definition begins (Q : nat -> Prop) (row : InputRow) (e : nat) : Prop := is_script row e -> forall j, spaces_before row j e -> Q j.
Lemma wrapped_begins (Q : nat -> Prop) row s e name t n : usable g t -> good_name name -> wrapped g row s e name t n -> (forall b, ends_token n b -> Q b) -> begins Q row e.
Proof.
  intros U Hn W HQ. inv W. intros _ j (L&A&B). destruct (token_end_ok Ends U H0) as (i&->&Hb&_). apply spaces_range in H1 as R. destruct R as [R _].
  assert (S i <= j).
  { destruct (le_lt_dec (S i) j) as [|L']; [auto|]. exfalso. apply Hb. apply A. lia. }
  destruct (Nat.eq_dec j (S i)) as [->|Ne]; [apply HQ; eapply ends_wrap; [exact H|exact H1|]; exact (token_ends_here U Hn H0)|].
  exfalso. destruct j as [|j]; [lia|]. apply (B j eq_refl). inv H1; [lia|]. apply H5. lia.
Qed.
Lemma ends_sub (Q : nat -> Prop) name l s e c : (forall b, ends_token (mkSyntax name (Children l) s e) b -> Q b) -> In c l -> forall b, ends_token c b -> Q b.
Proof. intros H Hc b E. apply H. apply ends_children. eauto. Qed.
Lemma scripted_begins (Q : nat -> Prop) row s e t n : usable g t -> scripted g row s e t n -> (forall b, ends_token n b -> Q b) -> begins Q row e.
Proof.
  intros U W HQ. inv W; [eapply wrapped_begins; eauto; apply operator_good|]. eapply wrapped_begins; [| |exact H1|]; [exact I|apply operator_good|]. eapply ends_sub; [exact HQ|cbn; tauto].
Qed.
Lemma tree_begins (Q : nat -> Prop) row s e n : tree g row s e n -> (forall b, ends_token n b -> Q b) -> begins Q row s -> begins Q row e.
Proof.
  induction 1 as [row s|row s m e a b Ta IHa Tb IHb|row s x E U|row s m e op v a Hop Tv Ta IHa|row s m k e op a v b Hop Ta IHa Tv Tb IHb|row s m e op a v Hop Ta IHa Tv|row s e name t n Hr Tn]; intros HQ S; auto.
  - apply IHb; [eapply ends_sub; [exact HQ|cbn; tauto]|]. apply IHa; [eapply ends_sub; [exact HQ|cbn; tauto]|exact S].
  - intros (v&c&E'&Hv) j (L&A&_). exfalso. assert (B : blank row s) by (apply A; lia). destruct (Scripts Hv) as (r&Hr&Ht).
    apply (U r (TContainer v) (Datatypes.S s) (Some (space_leaf s (Datatypes.S s))) Hr Ht); [|unfold blank; congruence|exists c; exact E'].
    constructor; [lia|]. intros k Hk. now replace k with s by lia.
  - apply IHa; [eapply ends_sub; [exact HQ|cbn; tauto]|]. eapply scripted_begins; [|exact Tv|eapply ends_sub; [exact HQ|cbn; tauto]]. eapply op_usable; [|exact Hop]. intros [] ? E; inv E; reflexivity.
  - apply IHb; [eapply ends_sub; [exact HQ|cbn; tauto]|]. eapply scripted_begins; [|exact Tv|eapply ends_sub; [exact HQ|cbn; tauto]]. eapply op_usable; [|exact Hop]. intros [] ? E; inv E; reflexivity.
  - eapply wrapped_begins; [|apply operator_good|exact Tv|eapply ends_sub; [exact HQ|cbn; tauto]]. eapply op_usable; [|exact Hop]. intros [] ? E; inv E; reflexivity.
  - apply atoms_in in Hr. eapply wrapped_begins; [|eapply Names; exact Hr|exact Tn|exact HQ]. eapply rule_usable; [exact Hr|reflexivity].
Qed.
Definition seen (Q : nat -> Prop) (row : InputRow) (s e : nat) : Prop := forall k, s <= k < e -> begins Q row k.
Lemma seen_app Q row s m e : seen Q row s m -> seen Q row m e -> seen Q row s e.
Proof. intros H H' k Hk. destruct (le_lt_dec m k); [apply H'; lia|apply H; lia]. Qed.
Lemma seen_symbols Q row s e : (forall k, s <= k < e -> exists x, nth_error row k = Some (Symbol x)) -> seen Q row s e.
Proof. intros H k Hk (v&c&E&_). apply H in Hk as (x&Hk). congruence. Qed.
Lemma seen_one Q row s x : nth_error row s = Some (Symbol x) -> seen Q row s (S s).
Proof. intros H. apply seen_symbols. intros k Hk. exists x. now replace k with s by lia. Qed.
Lemma seen_spaces Q row s e o : spaces row s e o -> seen Q row s e.
Proof. intros H. inv H; [intros k Hk; lia|]. apply seen_symbols. intros k Hk. exists space. now apply H1. Qed.
Definition token_seen (row : InputRow) (s e : nat) (t : TokenParser) (c : SyntaxNodeChildren) : Prop :=
  match t with
  | TContainer v => exists cells nodes w, c = NewRows (mkGrid nodes w) /\ e = S s /\ nth_error row s = Some (Container v (mkGrid cells w))
  | TBrackets _ _ | TEmptyBrackets _ _ => exists l, c = Children l /\ (content_rendered rs c -> forall (Q : nat -> Prop) name, (forall b, ends_token (mkSyntax name c s e) b -> Q b) -> seen Q row s e)
  | _ => exists ty l, c = Leaf ty l /\ forall Q, seen Q row s e
  end.
Definition opened_up (row : InputRow) (s e : nat) (name : PathIdentifier) (t : TokenParser) (n : SyntaxNode) : Prop :=
  exists a b c before after, n = wrap before (mkSyntax name c a b) after s e /\ spaces row s a before /\ spaces row b e after /\ token_seen row a b t c.
Lemma opened_seen (Q : nat -> Prop) row s e name t n : opened_up row s e name t n -> (forall b, ends_token n b -> Q b) ->
  (forall a b c before after, n = wrap before (mkSyntax name c a b) after s e -> token_seen row a b t c -> (forall j, ends_token (mkSyntax name c a b) j -> Q j) -> seen Q row a b) -> seen Q row s e.
Proof.
  intros (a&b&c&before&after&E&Sb&Sa&C) HQ H. apply seen_app with (m := a); [eapply seen_spaces; eauto|]. apply seen_app with (m := b); [|eapply seen_spaces; eauto].
  eapply H; [exact E|exact C|]. intros j Hj. apply HQ. rewrite E. eapply ends_wrap; eauto.
Qed.
Lemma seen_op (Q : nat -> Prop) row s e t n : not_container t -> opened_up row s e operator_rule_name t n -> rendered rs n -> (forall b, ends_token n b -> Q b) -> seen Q row s e.
Proof.
  intros Ht Ho Hn HQ. apply (opened_seen Ho HQ). intros a b c before after -> C HQ'. apply (rendered_wrap F) in Hn.
  assert (K : forall l, c = Children l -> content_rendered rs c).
  { intros l ->. destruct Hn as (ri&o&x&H). rewrite render_eq in H. unfold render_node in H. cbn [syn_name syn_range syn_children] in H. rewrite (fit_operator F) in H.
    apply simple_inv in H as (l'&E&Hl&_). cbn in E. inv E. exact Hl. }
  destruct t; try easy; cbn [token_seen] in C; try (destruct C as (ty&l&_&C); now apply C); destruct C as (l&->&C); (eapply C; [eapply K; reflexivity|exact HQ']).
Qed.
Lemma seen_atom (Q : nat -> Prop) row s e name t n : In (RAtom name t) (g_rules g) -> opened_up row s e name t n -> rendered rs n -> (forall b, ends_token n b -> Q b) -> seen Q row s e.
Proof.
  intros Hr Ho Hn HQ. apply (opened_seen Ho HQ). intros a b c before after -> C HQ'. apply (rendered_wrap F) in Hn. apply (fit_rules F) in Hr.
  destruct t as [l ty|v|x y|x y| | |]; cbn [token_seen] in C; try (destruct C as (ty'&l'&_&C); now apply C).
  - destruct C as (cells&nodes&w&->&->&En). intros k Hk (v'&c&E&Hv'). assert (k = a) as -> by lia. rewrite En in E. inv E. exfalso.
    destruct Hn as (ri&o&x&H). rewrite render_eq in H. unfold render_node in H. cbn [syn_name syn_range syn_children] in H.
    destruct Hv' as [-> | ->]; destruct (get_renderer rs name) as [[| | | |[]| | | | |]|]; easy.
  - destruct C as (l&->&C). eapply C; [apply (rendered_simple Hr Hn)|exact HQ'].
  - destruct C as (l&->&C). eapply C; [apply (rendered_simple Hr Hn)|exact HQ'].
Qed.
Lemma seen_script (Q : nat -> Prop) row s e name v n lhs s0 e0 : (v = Sub \/ v = Sup) -> script_renderer (get_renderer rs name) -> begins Q row s -> opened_up row s e operator_rule_name (TContainer v) n ->
  rendered rs (mkSyntax name (Children [lhs; n]) s0 e0) -> rendered rs lhs /\ seen Q row s e.
Proof.
  intros Hv Hn St (a&b&c&before&after&->&Sb&Sa&C) (ri&o&x&H). rewrite render_eq in H. unfold render_node in H. cbn [syn_name syn_range syn_children] in H.
  assert (K : exists tag, (_ <- assert_ (is_new_rows (nth_error [lhs; wrap before (mkSyntax operator_rule_name c a b) after s e] 1)) ;;
    simple_container rs (mkSyntax name (Children [lhs; wrap before (mkSyntax operator_rule_name c a b) after s e]) s0 e0) ri tag (mkOptions false (Some ri))) = Ok x)
    by (destruct Hn as [Hn|Hn]; rewrite Hn in H; eauto). clear H. destruct K as (tag&H). apply bind_ok in H as (?&Hr&H). apply assert_inv in Hr.
  destruct C as (cells&nodes&w&->&->&En).
  assert (before = None) as -> by (destruct before; [destruct after; discriminate|reflexivity]). assert (after = None) as -> by (destruct after; [discriminate|reflexivity]).
  apply spaces_range in Sa as [_ <-]. apply spaces_range in Sb as [_ <-]. cbn [wrap] in *. apply simple_inv in H as (l&E&Hl&_). cbn in E. inv E. inv Hl. split; [assumption|].
  intros k Hk. assert (k = s) as -> by lia. exact St.
Qed.
Theorem tree_seen :
  (forall row s e n, tree g row s e n -> rendered rs n -> forall Q : nat -> Prop, (forall b, ends_token n b -> Q b) -> begins Q row s -> seen Q row s e) /\
  (forall row s e t c, token g row s e t c -> usable g t -> token_seen row s e t c) /\
  (forall row s e name t n, wrapped g row s e name t n -> usable g t -> opened_up row s e name t n) /\
  (forall row s e t n, scripted g row s e t n -> usable g t -> not_container t -> rendered rs n -> forall Q : nat -> Prop, (forall b, ends_token n b -> Q b) -> seen Q row s e) /\
  (forall cells nodes, cells_tree g cells nodes -> True).
Proof.
  apply tree_mutind.
  - intros row s _ Q _ _ k Hk. lia.
  - intros row s m e a b Ta IHa _ IHb H Q HQ S. apply rendered_simple with (b := false) in H; [|apply (fit_juxt F)]. inv H. inv H3. inv H4.
    assert (Qa : forall b0, ends_token a b0 -> Q b0) by (eapply ends_sub; [exact HQ|cbn; tauto]). assert (Qb : forall b0, ends_token b b0 -> Q b0) by (eapply ends_sub; [exact HQ|cbn; tauto]).
    pose proof (tree_begins Ta Qa S). apply seen_app with (m := m); auto.
  - intros row s x E _ _ Q _ _. eapply seen_one; eauto.
  - intros row s m e op v a Hop Tv IHv _ IHa H Q HQ S. apply op_rule in Hop as (r&Hr&E). destruct r; inv E. pose proof (rule_usable Hr eq_refl) as U. apply (fit_rules F) in Hr as [Hc Hn]. cbn [op_token op_name] in *.
    assert (Qv : forall b0, ends_token v b0 -> Q b0) by (eapply ends_sub; [exact HQ|cbn; tauto]). assert (Qa : forall b0, ends_token a b0 -> Q b0) by (eapply ends_sub; [exact HQ|cbn; tauto]).
    pose proof (scripted_begins U Tv Qv). apply (rendered_simple Hn) in H. inv H. inv H4. apply seen_app with (m := m); auto.
  - intros row s m k e op a v b Hop _ IHa Tv IHv _ IHb H Q HQ S.
    assert (Qa : forall b0, ends_token a b0 -> Q b0) by (eapply ends_sub; [exact HQ|cbn; tauto]). assert (Qv : forall b0, ends_token v b0 -> Q b0) by (eapply ends_sub; [exact HQ|cbn; tauto]).
    assert (Qb : forall b0, ends_token b b0 -> Q b0) by (eapply ends_sub; [exact HQ|cbn; tauto]).
    apply op_rule in Hop as (r&Hr&E). destruct r; inv E; pose proof (rule_usable Hr eq_refl) as U; apply (fit_rules F) in Hr as [Hc Hn]; cbn [op_token op_name] in *;
      pose proof (scripted_begins U Tv Qv); apply (rendered_simple Hn) in H; inv H; inv H4; inv H5; (apply seen_app with (m := m); auto; apply seen_app with (m := k); auto).
  - intros row s m e op a v Hop Ta IHa _ IHv H Q HQ S. apply op_rule in Hop as (r&Hr&E). destruct r; inv E. pose proof (rule_usable Hr eq_refl) as U. apply (fit_rules F) in Hr. cbn [op_token op_name] in *.
    assert (Qa : forall b0, ends_token a b0 -> Q b0) by (eapply ends_sub; [exact HQ|cbn; tauto]). assert (Qv : forall b0, ends_token v b0 -> Q b0) by (eapply ends_sub; [exact HQ|cbn; tauto]).
    pose proof (tree_begins Ta Qa S) as Sm.
    assert (K : not_container t -> get_renderer rs name = Some (RenderSimple false) -> seen Q row s e).
    { intros Hc Hn. apply (rendered_simple Hn) in H. inv H. inv H3. apply seen_app with (m := m); auto. eapply seen_op; eauto. }
    destruct t; try (now apply K). destruct Hr as [Hv Hr]. destruct (seen_script Hv Hr Sm (IHv U) H). apply seen_app with (m := m); auto.
  - intros row s e name t n Hr _ IH H Q HQ _. apply atoms_in in Hr. pose proof (rule_usable Hr eq_refl) as U. eapply seen_atom; eauto.
  - intros row s e t ty symbols l Hl _ _ Hs _ _ _ _. assert (forall Q, seen Q row s e) by (intros Q; now apply seen_symbols). destruct t; try easy; cbn; eauto.
  - intros row s v cells w nodes En Hw Hm Hc IH _. exists cells, nodes, w. auto.
  - intros row s m a b c Ea Tc IH Eb (r&Hr&Ht). eexists. split; [reflexivity|]. intros H Q name HQ. cbn in H. inv H. inv H3. apply seen_app with (m := S s); [eapply seen_one; eauto|].
    apply seen_app with (m := m); [|eapply seen_one; eauto]. apply IH; [auto|eapply ends_sub; [exact HQ|cbn; tauto]|]. intros _ j (L&A&_). exfalso. apply (fit_open F (x := a)); [exists r, b; auto|].
    assert (B : is_space row s) by (apply A; lia). unfold is_space in B. rewrite Ea in B. now inv B.
  - intros row s a b Ea Eb _. eexists. split; [reflexivity|]. intros _ Q name _. apply seen_app with (m := S s); eapply seen_one; eauto.
  - intros row s a b e name t c before after Sb _ IH Sa Hb U. exists a, b, c, before, after. auto.
  - intros row s e t n _ IH U Ht H Q HQ. eapply seen_op; eauto.
  - intros row s m e t n v name op Hv Tn IHn _ IHo U Ht H Q HQ.
    assert (Hv' : v = Sub \/ v = Sup) by (destruct Hv as [[-> _]|[-> _]]; auto).
    assert (Hn : script_renderer (get_renderer rs name)) by (destruct Hv as [[_ ->]|[_ ->]]; [left; apply (fit_sub F)|right; apply (fit_sup F)]).
    assert (Qn : forall b0, ends_token n b0 -> Q b0) by (eapply ends_sub; [exact HQ|cbn; tauto]).
    destruct (seen_script Hv' Hn (scripted_begins U Tn Qn) (IHo I) H). apply seen_app with (m := m); auto.
  - exact I.
  - auto.
Qed.
Theorem rendered_spaces row n : tree g row 0 (List.length row) n -> rendered rs n -> spaces_after_tokens row n.
Proof.
  intros T H j k Hs Hb. assert (L : k < List.length row) by (destruct Hs as (v&c&E&_); apply nth_error_Some; congruence).
  refine (proj1 tree_seen _ _ _ _ T H (ends_token n) (fun b H => H) _ k _ Hs j Hb); [|lia]. intros _ i (Li&_). lia.
Qed.
End Needed.

(** ** All rows of a document *)
Section Rows.
Variable rs : Renderers.
Lemma rendered_parts n : rendered rs n -> match syn_children n with Children l => Forall (rendered rs) l | NewRows (mkGrid l _) => Forall (rendered rs) l | Leaf _ _ => True end.
Proof.
  intros (ri&o&x&H). rewrite render_eq in H.
  assert (S1 : forall tag o', simple_container rs n ri tag o' = Ok x -> match syn_children n with Children l => Forall (rendered rs) l | NewRows (mkGrid l _) => Forall (rendered rs) l | Leaf _ _ => True end).
  { intros tag o' Hy. apply simple_inv in Hy as (l&E&Hl&_). now rewrite E. }
  assert (S2 : forall class tag r, rows_container rs n class tag r = Ok x -> match syn_children n with Children l => Forall (rendered rs) l | NewRows (mkGrid l _) => Forall (rendered rs) l | Leaf _ _ => True end).
  { intros class tag r Hy. apply rows_inv in Hy as (l&w&E&Hl&_). now rewrite E. }
  unfold render_node in H. destruct n as [name c s e]. cbn [syn_range syn_name syn_children] in *.
  destruct (get_renderer rs name) as [r|] eqn:Er; [|discriminate]. destruct r as [|tag| | |tag|tag| | | |b].
  - destruct c as [|[|]|]; try discriminate. constructor.
  - destruct c; try discriminate. exact I.
  - eapply S1; eauto.
  - destruct c as [gr|l|ty l].
    + destruct (opt_override o) as [r|] eqn:Eo; [|discriminate]. eapply S2; eauto.
    + eapply S1; eauto.
    + exact I.
  - eapply S2; eauto.
  - destruct c as [gr|l|ty l]; try discriminate. apply bind_ok in H as (?&_&H). eapply S1; eauto.
  - eapply S2; eauto.
  - destruct c as [[l w]|l|ty l]; try discriminate. apply bind_ok in H as (?&_&H). apply bind_ok in H as (?&_&H). eapply S2; eauto.
  - destruct c as [|[|]|]; try discriminate. constructor.
  - eapply S1; eauto.
Qed.
Lemma rendered_rows_in k grid : forall f n, syn_size n < f -> rendered rs n -> get_child_with_new_rows n k = Ok grid -> Forall (rendered rs) (gvalues grid).
Proof.
  induction f as [|f IH]; intros n Hf H E; [lia|]. apply rendered_parts in H. destruct n as [name [[l w]|l|ty l] s e]; cbn [syn_children] in H; [cbn in E; inv E; exact H| |discriminate].
  assert (Hl : forall c, In c l -> syn_size c < f) by (intros c Hc; pose proof (syn_size_child Hc); cbn in Hf; lia). cbn in E. clear Hf.
  induction H as [|c l Hc H IHl]; [discriminate|]. destruct (in_range c k); [eapply IH; eauto; apply Hl; now left|]. apply IHl; [exact E|]. intros c' Hc'. apply Hl. now right.
Qed.
Lemma rendered_found p : forall n m, rendered rs n -> get_node_with_row_indices n p = Ok m -> rendered rs m.
Proof.
  induction p as [|[k j] p IH]; intros n m H E; cbn in E; [now inv E|]. apply bind_ok in E as (?&_&E). apply bind_ok in E as (grid&Eg&E). destruct (nth_error (gvalues grid) j) as [c|] eqn:Ec; [|discriminate].
  eapply IH; [|exact E]. pose proof (rendered_rows_in (Nat.lt_succ_diag_r _) H Eg) as K. rewrite Forall_forall in K. apply K. eapply nth_error_In; eauto.
Qed.
Lemma gtree_rows P : (forall row s e n, gtree P row s e n -> forall m l w, node_of n m -> syn_children m = NewRows (mkGrid l w) -> exists k v cells, nth_error row k = Some (Container v (mkGrid cells w)) /\ Forall2 P cells l) /\
  (forall row s e ns, gtiles P row s e ns -> forall n m l w, In n ns -> node_of n m -> syn_children m = NewRows (mkGrid l w) -> exists k v cells, nth_error row k = Some (Container v (mkGrid cells w)) /\ Forall2 P cells l).
Proof.
  apply gtree_mutind.
  - intros row s e name ns _ IH m l w Hm E. apply node_of_children in Hm as [->|(c&Hc&Hm)]; [discriminate|eauto].
  - intros. apply node_of_other in H; [|discriminate]. subst m. discriminate.
  - intros row s name v cells w nodes En HF m l w' Hm E. apply node_of_other in Hm; [|discriminate]. subst m. cbn in E. inv E. eauto.
  - intros row s n m l w [].
  - intros row s m e n ns _ IHn _ IHl n' m' l w [<-|Hn] Hm E; eauto.
Qed.
End Rows.
Lemma size_cell_doc doc i v c cell : nth_error doc i = Some (Container v c) -> In cell (gvalues c) -> row_size cell < row_size doc.
Proof.
  intros E Hc. pose proof (size_cell E Hc). assert (row_size (skipn i doc) <= row_size doc); [|lia].
  destruct i as [|i]; [reflexivity|]. pose proof (nth_error_Some_lt E). pose proof (@size_skipn doc 0 (S i)) as Hj. cbn [skipn] in Hj. cbn [skipn]. lia.
Qed.
Section DefaultRows.
Variables xs xc : N -> bool.
Notation g := (default_grammar xs xc).
Theorem default_renders_spaces : forall k doc n, row_size doc < k -> wf_row doc -> parse g doc = Ok n ->
  everywhere two_cells doc -> everywhere no_space_after_scripts doc -> everywhere (spaces_drawable xs xc) doc -> renders default_renderers n.
Proof.
  induction k as [|k IH]; intros doc n Hk Hwf En H2 Ha Hb; [lia|]. pose proof (parse_shape (@default_no_empty_tokens xs xc) En) as T.
  eapply (proj1 (@spaced_renders _ _ (default_fits xs xc) (@default_open xs xc))); [exact T| | | |apply settled_start].
  - split; [eapply wf_nonempty; [exact Hwf|]; instantiate (1 := []); reflexivity|]. split; [now apply (H2 [])|now apply (Ha [])].
  - intros m l w Hm E. destruct (parse_gtree (@default_no_empty_tokens xs xc) (@default_all_containers xs xc) Hwf) as (n'&En'&G). rewrite En in En'. inv En'.
    destruct (proj1 (gtree_rows (P g)) _ _ _ _ G _ _ _ Hm E) as (i&v&cells&Ei&HF).
    assert (K : forall cell, In cell cells -> wf_row cell /\ row_size cell < k /\ everywhere two_cells cell /\ everywhere no_space_after_scripts cell /\ everywhere (spaces_drawable xs xc) cell).
    { intros cell Hc. split; [pose proof (wf_row_nth Hwf Ei) as Hn; apply wf_container_inv in Hn as (_&_&_&Hx); now apply Hx|]. split; [pose proof (@size_cell_doc doc i v (mkGrid cells w) cell Ei Hc); lia|]. repeat split; eapply everywhere_cell; eauto. }
    clear - HF K IH. induction HF as [|cell node cells l HP HF IHl]; constructor; [|apply IHl; intros c Hc; apply K; now right]. destruct (K cell (or_introl eq_refl)) as (W&S&K1&K2&K3).
    eapply IH; eauto. apply P_parse; auto; [apply default_no_empty_tokens|apply default_all_containers].
  - intros j i _ _ Hs Hr. exact (Hb [] doc eq_refl n En j i Hs Hr).
Qed.
Hypothesis X1 : xs 32%N = false.
Hypothesis X2 : xc 32%N = false.
Hypothesis X3 : xs 40%N = false.
Definition plain_rule_b (r : ParseRule) : bool :=
  match r with RAtom name _ => negb (existsb (path_eqb name) [error_unknown_token_name; whitespace_rule_name]) | _ => true end &&
  match rule_token r with
  | Some (TSymbols l _) => negb (str_eqb (concat l) [40%N])
  | Some (TBrackets _ b) | Some (TEmptyBrackets _ b) => negb (str_eqb b [40%N])
  | _ => true
  end.
Lemma plain_rules : forallb plain_rule_b default_parse_rules = true.
Proof. vm_compute. reflexivity. Qed.
Lemma plain_rule r : In r (g_rules g) -> plain_rule_b r = true.
Proof. intros H. pose proof plain_rules as A. rewrite forallb_forall in A. exact (A r H). Qed.
Lemma str_refl x : str_eqb x x = true.
Proof. now apply str_eqb_eq. Qed.
Lemma default_good name t : In (RAtom name t) (g_rules g) -> good_name name.
Proof.
  intros H. apply plain_rule in H. unfold plain_rule_b in H. apply andb_prop in H as [H _]. apply negb_true_iff in H. cbn [existsb] in H. apply orb_false_elim in H as [H1 H]. apply orb_false_elim in H as [H2 _].
  split; intros ->; [rewrite (proj2 (path_eqb_eq _ _) eq_refl) in H1|rewrite (proj2 (path_eqb_eq _ _) eq_refl) in H2]; discriminate.
Qed.
Lemma default_leaves t symbols l : usable g t -> leaf_of g t symbols l -> symbols <> [[40%N]].
Proof.
  intros U H ->. destruct t; cbn [leaf_of] in H; try easy.
  - destruct U as (r&Hr&Ht). apply plain_rule in Hr. unfold plain_rule_b in Hr. apply andb_prop in Hr as [_ Hr]. rewrite Ht in Hr. destruct H as [H ->]. inv H. rewrite <- H1 in Hr. rewrite str_refl in Hr. discriminate.
  - destruct H as [<- H]. discriminate.
  - destruct H as (<-&H&_). cbn [hd] in H. unfold is_identifier_start in H. cbn in H. rewrite X3 in H. discriminate.
  - destruct H as [<- H]. discriminate.
Qed.
Lemma default_close r t a b : In r (g_rules g) -> rule_token r = Some t -> t = TBrackets a b \/ t = TEmptyBrackets a b -> b <> [40%N].
Proof.
  intros Hr Ht Hb ->. apply plain_rule in Hr. unfold plain_rule_b in Hr. apply andb_prop in Hr as [_ Hr]. rewrite Ht in Hr. destruct Hb as [-> | ->]; rewrite str_refl in Hr; discriminate.
Qed.
Theorem default_rendered_tokens doc n x : wf_row doc -> parse g doc = Ok n -> render_all default_renderers n = Ok x -> everywhere (spaces_drawable xs xc) doc.
Proof.
  intros Hwf En Hx p row E m Em. destruct (find_parsed (@default_no_empty_tokens xs xc) (@default_all_containers xs xc) Hwf En E) as (m'&Ef&Em'). rewrite Em in Em'. inv Em'.
  assert (R : rendered default_renderers m') by (eapply rendered_found; [|exact Ef]; exists None, no_options, x; exact Hx).
  pose proof (parse_shape (@default_no_empty_tokens xs xc) Em) as T.
  assert (S : forall v, v = Sub \/ v = Sup -> exists r, In r (g_rules g) /\ rule_token r = Some (TContainer v)) by (intros v _; apply default_all_containers).
  exact (@rendered_spaces _ _ (default_fits xs xc) _ (default_ends X1 X2) S default_good default_leaves default_close _ _ T R).
Qed.
End DefaultRows.
