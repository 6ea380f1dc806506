(** Facts about the DOM and about the names in a tree. *)
From Coq Require Import String Permutation.
From Verif Require Import Base Str Grid Node Focus Autocomplete Spec NameMap Syntax Pratt Grammar SyntaxFind Render Layout SpecSyntax SpecPratt SpecRender SpecDom BaseFacts TreeFacts ParseFacts ParseTotal GrammarFacts FindFacts NameMapFacts ShapeFacts RenderFacts LayoutFacts.
Open Scope list_scope.
Open Scope nat_scope.
Set Implicit Arguments.
Unset Strict Implicit.

(** ** Valid MathML *)
Definition token_tag (t : Tag) : bool := match t with Tmi | Tmn | Tmo | Tmtext | Tmspace | Tmerror => true | _ => false end.
Definition good_renderer (r : Renderer) : bool :=
  match r with RenderText t => token_tag t | RenderRows t => match t with Tmfrac => true | _ => false end | RenderScript t => match t with Tmsub | Tmsup => true | _ => false end | _ => true end.
Lemma wrap_valid l : forallb valid_dom l = true -> valid_dom (wrap_in_mrow l) = true.
Proof. intros H. destruct l as [|a [|b l]]; cbn; auto. cbn in H. now apply andb_prop in H as [H _]. Qed.
Lemma forallb_map A B (f : B -> bool) (h : A -> B) l : forallb f (map h l) = forallb (fun x => f (h x)) l.
Proof. induction l as [|a l IH]; cbn; [reflexivity|]. now rewrite IH. Qed.
Lemma forallb_rev A (f : A -> bool) l : forallb f (rev l) = forallb f l.
Proof. apply eq_true_iff_eq. rewrite !forallb_forall. split; intros H x Hx; apply H; now apply in_rev in Hx || (apply -> in_rev; exact Hx). Qed.
(** Rows of a table *)
Definition table_row (w : nat) (d : Dom) : Prop := exists l, d = create_math_element Tmtr (map (fun x => create_math_element Tmtd [x]) l) /\ List.length l = w /\ forallb valid_dom l = true.
Lemma table_rows_ok w : 0 < w -> forall fuel l, List.length l <= fuel -> List.length l mod w = 0 -> forallb valid_dom l = true -> Forall (table_row w) (table_rows fuel w l).
Proof.
  intros Hw. induction fuel as [|fuel IH]; intros l Hf Hm Hv; [destruct l; [constructor|cbn in Hf; lia]|].
  destruct l as [|a l]; [constructor|]. cbn [table_rows].
  assert (L : w <= List.length (a :: l)). { apply Nat.div_exact in Hm; [|lia]. destruct (List.length (a :: l) / w) eqn:E; [rewrite Nat.mul_0_r in Hm; discriminate|]. nia. }
  assert (V : forallb valid_dom (firstn w (a :: l)) = true /\ forallb valid_dom (skipn w (a :: l)) = true).
  { rewrite <- (firstn_skipn w (a :: l)), forallb_app in Hv. now apply andb_prop in Hv. }
  constructor.
  - exists (firstn w (a :: l)). repeat split; [now apply firstn_length_le|apply V].
  - apply IH.
    + rewrite skipn_length. cbn [List.length] in *. lia.
    + rewrite skipn_length. apply Nat.mod_divides in Hm as [c Hc]; [|lia]. rewrite Hc. destruct c as [|c]; [rewrite Nat.mul_0_r in Hc; discriminate|].
      replace (w * S c - w) with (c * w) by lia. apply Nat.mod_mul. lia.
    + apply V.
Qed.
Lemma table_valid w l : 0 < w -> Forall (table_row w) l -> valid_dom (create_math_element Tmtable l) = true.
Proof.
  intros Hw H. cbn [valid_dom create_math_element]. apply andb_true_intro. split; [apply andb_true_intro; split|].
  - apply forallb_forall. intros d Hd. rewrite Forall_forall in H. destruct (H d Hd) as (r&->&_). reflexivity.
  - apply forallb_forall. intros d Hd. rewrite Forall_forall in H. destruct (H d Hd) as (r&->&_&V). cbn. apply andb_true_intro. split.
    + rewrite forallb_map. now apply forallb_forall.
    + rewrite forallb_map. apply forallb_forall. intros x Hx. cbn. rewrite forallb_forall in V. now rewrite (V x Hx).
  - assert (C : forall d, In d l -> child_count d = w). { intros d Hd. rewrite Forall_forall in H. destruct (H d Hd) as (r&->&E&_). cbn. now rewrite map_length. }
    apply forallb_forall. intros d Hd. rewrite (C d Hd). replace (child_count (hd d l)) with w.
    + apply andb_true_intro. split; [lia|apply Nat.eqb_refl].
    + symmetry. apply C. destruct l; [destruct Hd|now left].
Qed.

Section Valid.
Variable rs : Renderers.
Hypothesis Hrs : forall name r, get_renderer rs name = Some r -> good_renderer r = true.
Definition drawn (x : Element) : Prop := forallb valid_dom (get_elements x) = true.
Definition child_doms (xs : list Element) : list Dom := map (fun x => wrap_in_mrow (get_elements x)) xs.
Lemma child_doms_valid xs : Forall drawn xs -> forallb valid_dom (child_doms xs) = true.
Proof. induction 1 as [|x xs Hx Hl IH]; [reflexivity|]. unfold child_doms in *. cbn [map forallb]. rewrite IH, andb_true_r. now apply wrap_valid. Qed.
Lemma mapi_drawn A (f : nat -> A -> Res Element) l : (forall a k x, In a l -> f k a = Ok x -> drawn x) -> forall k xs, mapi_res f k l = Ok xs -> Forall drawn xs /\ List.length xs = List.length l.
Proof.
  induction l as [|a l IH]; intros Hf k xs H; cbn [mapi_res] in H; [inv H; auto|]. apply bind_ok in H as (x&Ex&H). apply bind_ok in H as (r&Er&H). inv H.
  destruct (IH (fun a' k' x' Hin => Hf a' k' x' (or_intror Hin)) _ _ Er) as [H1 H2]. split; [constructor; auto; eapply Hf; eauto; now left|cbn; now rewrite H2].
Qed.
Lemma two_valid tag xs : right_number tag (List.length xs) = true -> token_tag tag = false -> Forall drawn xs ->
  (tag = Tmfrac \/ tag = Tmroot \/ tag = Tmsub \/ tag = Tmsup \/ tag = Tmrow) -> valid_dom (create_math_element tag (child_doms xs)) = true.
Proof.
  intros Hn _ Hx Ht. pose proof (child_doms_valid Hx) as V. assert (L : List.length (child_doms xs) = List.length xs) by apply map_length.
  change (forallb valid_dom (child_doms xs) = true) in V.
  destruct Ht as [->|[->|[->|[->| ->]]]]; cbn [valid_dom create_math_element]; try exact V; apply andb_true_intro; (split; [rewrite L|exact V]); unfold right_number, expected_children in Hn; now rewrite Nat.eqb_sym, Hn.
Qed.
Theorem render_valid : forall k n ri o x, syn_size n < k -> render rs n ri o = Ok x -> drawn x.
Proof.
  induction k as [|k IH]; intros n ri o x Hk H; [lia|]. rewrite render_eq in H.
  assert (S1 : forall ri tag o' y, simple_container rs n ri tag o' = Ok y -> (tag = Tmfrac \/ tag = Tmroot \/ tag = Tmsub \/ tag = Tmsup \/ tag = Tmrow) -> drawn y).
  { intros ri' tag o' y Hy Htag. unfold simple_container in Hy. apply bind_ok in Hy as (xs&Ex&Hy). apply bind_ok in Hy as (?&Hl&Hy). apply bind_ok in Hy as (?&Hn&Hy). inv Hy. apply assert_inv in Hn.
    destruct n as [name c s e]. cbn [syn_children render_children] in *. destruct c as [|l|]; try discriminate.
    apply mapi_drawn in Ex as [Hx Hlen]; [|intros a j y Hin E; eapply IH; [|exact E]; pose proof (syn_size_child Hin); cbn in Hk; lia].
    unfold drawn. cbn [get_elements forallb]. fold (child_doms xs). rewrite two_valid; auto. destruct Htag as [->|[->|[->|[->| ->]]]]; reflexivity. }
  assert (S2 : forall class tag r y, rows_container rs n class tag r = Ok y -> exists l w xs, syn_children n = NewRows (mkGrid l w) /\ y = mkElement class n r xs /\ Forall drawn xs /\ List.length xs = List.length l /\ right_number tag (List.length xs) = true).
  { intros class tag r y Hy. unfold rows_container in Hy. apply bind_ok in Hy as (?&He&Hy). apply bind_ok in Hy as (xs&Ex&Hy). apply bind_ok in Hy as (?&Hl&Hy). apply bind_ok in Hy as (?&Hn&Hy). inv Hy.
    apply assert_inv in Hn. destruct n as [name c s e]. cbn [syn_children syn_range fst snd render_rows] in *. destruct c as [[l w]| |]; try discriminate.
    apply mapi_drawn in Ex as [Hx Hlen]; [|intros a j y Hin E; eapply IH; [|exact E]; pose proof (syn_size_child Hin); cbn in Hk; lia]. exists l, w, xs. auto. }
  assert (R : forall d, valid_dom d = true -> forallb valid_dom [create_math_element Tmphantom []; d; create_math_element Tmphantom []] = true) by (intros d E; cbn; now rewrite E).
  assert (T : forall l, forallb is_text (map DomText l) = true) by (intros l; rewrite forallb_map; now apply forallb_forall).
  unfold render_node in H. destruct n as [name c s e]. cbn [syn_range syn_name syn_children] in H, S1, S2.
  destruct (get_renderer rs name) as [r|] eqn:Er; [|discriminate]. apply Hrs in Er. destruct r as [|tag| | |tag|tag| | | |b].
  - destruct c as [|[|]|]; try discriminate. apply bind_ok in H as (?&He&H). inv H. reflexivity.
  - destruct c; try discriminate. inv H. unfold drawn. cbn [get_elements forallb leaf_symbols syn_children]. destruct tag; try discriminate; cbn [valid_dom create_math_element]; now rewrite T.
  - eapply S1; eauto 7.
  - destruct c as [gr|l|ty l].
    + destruct (opt_override o) as [r|] eqn:Eo; [|discriminate]. apply S2 in H as (l&w&xs&_&->&Hx&_&Hn). apply R. apply two_valid; auto 6.
    + eapply S1; eauto 7.
    + inv H. unfold drawn. cbn [get_elements forallb leaf_symbols syn_children valid_dom]. now rewrite T.
  - destruct tag; try discriminate. apply S2 in H as (l&w&xs&_&->&Hx&_&Hn). apply R. apply two_valid; auto 6.
  - destruct c as [gr|l|ty l]; try discriminate. apply bind_ok in H as (?&_&H). destruct tag; try discriminate; eapply S1; eauto 7.
  - apply S2 in H as (l&w&xs&_&->&Hx&_&Hn). apply R. cbn [valid_dom create_math_element]. apply andb_true_intro. split.
    + rewrite rev_length, map_length. unfold right_number, expected_children in Hn. now rewrite Nat.eqb_sym, Hn.
    + rewrite forallb_rev. exact (child_doms_valid Hx).
  - destruct c as [[l w]|l|ty l]; try discriminate. apply bind_ok in H as (?&_&H). apply bind_ok in H as (?&Hw&H). apply S2 in H as (l'&w'&xs&E&->&Hx&Hlen&_). inv E. apply R. cbn [syn_children gwidth].
    destruct (Nat.eqb_spec w' 0) as [|W]; [discriminate|]. apply assert_inv, Nat.eqb_eq in Hw. apply table_valid with (w := w'); [lia|]. apply table_rows_ok; [lia|reflexivity| |now apply child_doms_valid].
    rewrite map_length, Hlen. pose proof (Nat.div_mod (List.length l') w' W) as D. pose proof (Nat.mod_upper_bound (List.length l') w' W) as U.
    destruct (Nat.eq_dec (List.length l' mod w') 0) as [|NZ]; [assumption|]. exfalso.
    assert ((List.length l' + (w' - 1)) / w' >= S (List.length l' / w')); [|lia]. apply Nat.div_le_lower_bound; [exact W|]. nia.
  - destruct c as [|[|]|]; try discriminate. apply bind_ok in H as (?&He&H). inv H. reflexivity.
  - eapply S1; eauto 7.
Qed.
End Valid.
Lemma default_good name r : get_renderer default_renderers name = Some r -> good_renderer r = true.
Proof.
  assert (F : forallb (fun e => good_renderer (snd e)) default_renderers = true) by (vm_compute; reflexivity). rewrite forallb_forall in F.
  unfold get_renderer. intros H. assert (exists k, In (k, r) default_renderers) as [k Hk].
  { clear F. induction default_renderers as [|[k v] l IH]; [discriminate|]. cbn in H. destruct (path_eqb name k); [inv H; exists k; now left|]. destruct (IH H) as [k' Hk]. exists k'. now right. }
  now apply F in Hk.
Qed.

(** ** Text *)
Definition doms_texts (l : list Dom) : list str := flat_map dom_texts l.
Definition element_texts (x : Element) : list str := doms_texts (get_elements x).
Lemma wrap_texts l : dom_texts (wrap_in_mrow l) = doms_texts l.
Proof. destruct l as [|a [|b l]]; cbn; auto. now rewrite app_nil_r. Qed.
Lemma child_texts xs : doms_texts (child_doms xs) = flat_map element_texts xs.
Proof. unfold child_doms, doms_texts. induction xs as [|x xs IH]; [reflexivity|]. cbn. now rewrite wrap_texts, IH. Qed.
Lemma texts_rev_perm l : Permutation (doms_texts (rev l)) (doms_texts l).
Proof.
  unfold doms_texts. rewrite !flat_map_concat_map, map_rev. induction (map dom_texts l) as [|a m IH]; [constructor|]. cbn. rewrite concat_app. cbn. rewrite app_nil_r.
  rewrite Permutation_app_comm. now apply Permutation_app_head.
Qed.
Lemma doms_app l l' : doms_texts (l ++ l') = doms_texts l ++ doms_texts l'.
Proof. apply flat_map_app. Qed.
Lemma table_texts w : 0 < w -> forall fuel l, List.length l <= fuel -> doms_texts (table_rows fuel w l) = doms_texts l.
Proof.
  intros Hw. induction fuel as [|fuel IH]; intros l Hf; [destruct l; [reflexivity|cbn in Hf; lia]|]. destruct l as [|a l]; [reflexivity|]. cbn [table_rows].
  rewrite <- (firstn_skipn w (a :: l)) at 3. rewrite doms_app. unfold doms_texts at 1. cbn [flat_map]. f_equal.
  - generalize (firstn w (a :: l)). intros m. induction m as [|d m IHm]; [reflexivity|]. cbn in *. rewrite app_nil_r. now rewrite IHm.
  - apply IH. rewrite skipn_length. cbn [List.length] in *. lia.
Qed.
Lemma text_doms l : doms_texts (map DomText l) = l.
Proof. induction l as [|a l IH]; [reflexivity|]. unfold doms_texts in *. cbn. now rewrite IH. Qed.
Definition filler (t : str) : Prop := t = missing_text \/ t = placeholder.
Definition same_texts (a b : list str) : Prop := exists l, Permutation a (b ++ l) /\ Forall filler l.
Lemma same_refl a : same_texts a a.
Proof. exists []. rewrite app_nil_r. split; [reflexivity|constructor]. Qed.
Lemma perm_parts (A B : list (list str)) : Forall2 same_texts A B -> same_texts (concat A) (concat B).
Proof.
  induction 1 as [|a b A B (k&Hk&F) _ (k'&IH&F')]; [apply same_refl|]. exists (k ++ k'). split; [|now apply Forall_app]. cbn. rewrite Hk, IH, <- !app_assoc. apply Permutation_app_head.
  rewrite !app_assoc. apply Permutation_app_tail. apply Permutation_app_comm.
Qed.
Section Texts.
Variable rs : Renderers.
Definition spells (n : SyntaxNode) (x : Element) : Prop := same_texts (element_texts x) (tree_symbols n).
Lemma mapi_spells (f : nat -> SyntaxNode -> Res Element) l : (forall a k x, In a l -> f k a = Ok x -> spells a x) -> forall k xs, mapi_res f k l = Ok xs ->
  same_texts (flat_map element_texts xs) (flat_map tree_symbols l).
Proof.
  intros Hf k xs H. rewrite !flat_map_concat_map. apply perm_parts. revert k xs H. induction l as [|a l IH]; intros k xs H; cbn [mapi_res] in H; [inv H; constructor|].
  apply bind_ok in H as (x&Ex&H). apply bind_ok in H as (r&Er&H). inv H. cbn [map]. constructor; [eapply Hf; eauto; now left|]. eapply IH; eauto. intros a' k' x' Hin. apply Hf. now right.
Qed.
Theorem render_texts : forall k n ri o x, syn_size n < k -> render rs n ri o = Ok x -> spells n x.
Proof.
  induction k as [|k IH]; intros n ri o x Hk H; [lia|]. rewrite render_eq in H.
  assert (S1 : forall ri tag o' y, simple_container rs n ri tag o' = Ok y -> spells n y).
  { intros ri' tag o' y Hy. unfold simple_container in Hy. apply bind_ok in Hy as (xs&Ex&Hy). apply bind_ok in Hy as (?&Hl&Hy). apply bind_ok in Hy as (?&Hn&Hy). inv Hy.
    destruct n as [name c s e]. cbn [syn_children render_children] in *. destruct c as [|l|]; try discriminate.
    apply mapi_spells in Ex as P; [|intros a i y Hin E; eapply IH; [|exact E]; pose proof (syn_size_child Hin); cbn in Hk; lia].
    unfold spells, element_texts. cbn [get_elements doms_texts flat_map dom_texts create_math_element]. fold (child_doms xs). fold (doms_texts (child_doms xs)). rewrite app_nil_r, child_texts. exact P. }
  assert (S2 : forall class tag r y, rows_container rs n class tag r = Ok y -> exists l w xs, syn_children n = NewRows (mkGrid l w) /\ y = mkElement class n r xs /\ List.length xs = List.length l /\
    same_texts (flat_map element_texts xs) (flat_map tree_symbols l)).
  { intros class tag r y Hy. unfold rows_container in Hy. apply bind_ok in Hy as (?&He&Hy). apply bind_ok in Hy as (xs&Ex&Hy). apply bind_ok in Hy as (?&Hl&Hy). apply bind_ok in Hy as (?&Hn&Hy). inv Hy.
    destruct n as [name c s e]. cbn [syn_children syn_range fst snd render_rows] in *. destruct c as [[l w]| |]; try discriminate.
    pose proof (mapi_inv Ex) as [_ Hlen]. apply mapi_spells in Ex as P; [|intros a i y Hin E; eapply IH; [|exact E]; pose proof (syn_size_child Hin); cbn in Hk; lia]. exists l, w, xs. auto. }
  assert (S3 : forall tag r y, rows_container rs n (RowsContainer tag) tag r = Ok y -> spells n y).
  { intros tag r y Hy. apply S2 in Hy as (l&w&xs&E&->&_&P). destruct n as [name c s e]. cbn in E. subst c. unfold spells, element_texts.
    cbn [get_elements doms_texts flat_map dom_texts create_math_element app]. fold (child_doms xs). fold (doms_texts (child_doms xs)). rewrite !app_nil_r, child_texts. exact P. }
  unfold render_node in H. destruct n as [name c s e]. cbn [syn_range syn_name syn_children] in H, S1, S2, S3.
  destruct (get_renderer rs name) as [r|] eqn:Er; [|discriminate]. destruct r as [|tag| | |tag|tag| | | |b].
  - destruct c as [|[|]|]; try discriminate. apply bind_ok in H as (?&He&H). inv H. exists [placeholder]. split; [reflexivity|repeat constructor; now right].
  - destruct c; try discriminate. inv H. unfold spells, element_texts. cbn [get_elements doms_texts flat_map dom_texts create_math_element leaf_symbols syn_children tree_symbols repeat].
    fold (doms_texts (map DomText symbols)). rewrite text_doms, !app_nil_r. apply same_refl.
  - eapply S1; eauto.
  - destruct c as [gr|l|ty l].
    + destruct (opt_override o) as [r|] eqn:Eo; [|discriminate]. eapply S3; eauto.
    + eapply S1; eauto.
    + inv H. unfold spells, element_texts. cbn [get_elements doms_texts flat_map dom_texts create_math_element leaf_symbols syn_children tree_symbols repeat].
      fold (doms_texts (map DomText l)). rewrite text_doms, !app_nil_r. apply same_refl.
  - eapply S3; eauto.
  - destruct c as [gr|l|ty l]; try discriminate. apply bind_ok in H as (?&_&H). eapply S1; eauto.
  - apply S2 in H as (l&w&xs&E&->&_&P). subst c. unfold spells, element_texts.
    cbn [get_elements doms_texts flat_map dom_texts create_math_element app tree_symbols]. fold (child_doms xs). fold (doms_texts (rev (child_doms xs))). rewrite !app_nil_r. destruct P as (k0&P&F). exists k0. split; [|exact F]. rewrite texts_rev_perm, child_texts. exact P.
  - destruct c as [[l w]|l|ty l]; try discriminate. apply bind_ok in H as (?&_&H). apply bind_ok in H as (?&Hw&H). apply S2 in H as (l'&w'&xs&E&->&_&P). inv E. unfold spells, element_texts.
    cbn [get_elements doms_texts flat_map dom_texts create_math_element app tree_symbols syn_children gwidth]. fold (child_doms xs). destruct (Nat.eqb_spec w' 0) as [|W]; [discriminate|].
    fold (doms_texts (table_rows (List.length (child_doms xs)) w' (child_doms xs))). rewrite !app_nil_r, table_texts, child_texts by lia. exact P.
  - destruct c as [|[|]|]; try discriminate. apply bind_ok in H as (?&He&H). inv H. exists [missing_text]. split; [reflexivity|repeat constructor; now left].
  - eapply S1; eauto.
Qed.
End Texts.

(** ** Names *)
Definition built_in_names : list PathIdentifier :=
  [operator_rule_name; whitespaces_rule_name; whitespace_rule_name; sub_rule_name; sup_rule_name; error_missing_operator_name; error_unknown_token_name; error_missing_token_name].
Ltac fl := repeat (apply Forall_cons || apply Forall_nil); auto.
Section Names.
Variable g : Grammar.
Definition named (n : SyntaxNode) : Prop := forall m, node_of m n -> In (syn_name m) built_in_names \/ In (syn_name m) (grammar_names g).
Lemma named_children name l s e : In name built_in_names \/ In name (grammar_names g) -> Forall named l -> named (mkSyntax name (Children l) s e).
Proof. intros Hn Hl m H. inv H; [exact Hn|]. rewrite Forall_forall in Hl. eapply Hl; eauto. Qed.
Lemma named_rows name l w s e : In name built_in_names \/ In name (grammar_names g) -> Forall named l -> named (mkSyntax name (NewRows (mkGrid l w)) s e).
Proof. intros Hn Hl m H. inv H; [exact Hn|]. rewrite Forall_forall in Hl. eapply Hl; eauto. Qed.
Lemma named_leaf name ty l s e : In name built_in_names \/ In name (grammar_names g) -> named (mkSyntax name (Leaf ty l) s e).
Proof. intros Hn m H. inv H. exact Hn. Qed.
Definition content_named (c : SyntaxNodeChildren) : Prop := match c with Leaf _ _ => True | Children l | NewRows (mkGrid l _) => Forall named l end.
Lemma named_content name c s e : In name built_in_names \/ In name (grammar_names g) -> content_named c -> named (mkSyntax name c s e).
Proof. intros Hn Hc. destruct c as [[l w]|l|ty l]; [now apply named_rows|now apply named_children|now apply named_leaf]. Qed.
Lemma built_in name : existsb (path_eqb name) built_in_names = true -> In name built_in_names.
Proof. intros H. apply existsb_exists in H as (x&Hx&E). apply path_eqb_eq in E. now subst. Qed.
Lemma named_wrap row s a before n row' b e after : spaces row s a before -> spaces row' b e after -> named n -> named (wrap before n after s e).
Proof.
  intros Sb Sa Hn. assert (W : In whitespaces_rule_name built_in_names) by (now apply built_in). assert (W' : In whitespace_rule_name built_in_names) by (now apply built_in).
  assert (K : forall row s e o m, spaces row s e o -> o = Some m -> named m) by (intros ? ? ? ? ? X ->; inv X; apply named_leaf; auto).
  pose proof (fun m => K _ _ _ _ m Sb) as Kb. pose proof (fun m => K _ _ _ _ m Sa) as Ka. unfold wrap. destruct before, after; auto; apply named_children; auto; fl.
Qed.
Lemma op_named sel op : (forall r o, sel r = Some o -> rule_name r = op_name o) -> In op (g_ops sel g) -> In (op_name op) (grammar_names g).
Proof. intros Hs H. apply ops_in in H as (r&Hr&E). apply Hs in E. rewrite <- E. now apply in_map. Qed.
Theorem tree_named :
  (forall row s e n, tree g row s e n -> named n) /\
  (forall row s e t c, token g row s e t c -> content_named c) /\
  (forall row s e name t n, wrapped g row s e name t n -> In name built_in_names \/ In name (grammar_names g) -> named n) /\
  (forall row s e t n, scripted g row s e t n -> named n) /\
  (forall cells nodes, cells_tree g cells nodes -> Forall named nodes).
Proof.
  assert (O : In operator_rule_name built_in_names) by (now apply built_in).
  assert (M : forall s, named (missing_at s)) by (intros s; apply named_children; [left; now apply built_in|constructor]).
  assert (OL : forall x p, named (op_leaf x p)) by (intros; apply named_leaf; auto).
  apply tree_mutind.
  - intros. apply M.
  - intros row s m e a b _ IHa _ IHb. apply named_children; [left; now apply built_in|]. fl.
  - intros row s x _ _. apply named_leaf. left. now apply built_in.
  - intros row s m e op v a Hop _ IHv _ IHa. apply named_children; [right; eapply op_named; [|exact Hop]; intros [] ? E; inv E; reflexivity|]. fl.
  - intros row s m k e op a v b Hop _ IHa _ IHv _ IHb. apply named_children; [right; eapply op_named; [|exact Hop]; intros [] ? E; inv E; reflexivity|]. fl.
  - intros row s m e op a v Hop _ IHa _ IHv. apply named_children; [right; eapply op_named; [|exact Hop]; intros [] ? E; inv E; reflexivity|]. fl.
  - intros row s e name t n Hr _ IH. apply IH. right. apply atoms_in in Hr. apply (in_map rule_name) in Hr. exact Hr.
  - intros. exact I.
  - intros row s v cells w nodes _ _ _ _ IH. exact IH.
  - intros row s m a b c _ _ IH _. cbn. fl.
  - intros row s a b _ _. cbn. fl.
  - intros row s a b e name t c before after Sb _ IH Sa _ Hn. eapply named_wrap; eauto. now apply named_content.
  - auto.
  - intros row s m e t n v name op Hv _ IHn _ IHo. apply named_children; [left; destruct Hv as [[_ ->]|[_ ->]]; now apply built_in|]. fl.
  - constructor.
  - constructor; auto.
Qed.
End Names.
Lemma tree_symbols_text : forall k n, syn_size n < k -> concat (tree_symbols n) = leaf_text n.
Proof.
  assert (C : forall l : list SyntaxNode, (forall n, In n l -> concat (tree_symbols n) = leaf_text n) -> concat (flat_map tree_symbols l) = concat (map leaf_text l)).
  { induction l as [|n l IH]; intros H; [reflexivity|]. cbn. rewrite concat_app, IH, H; auto; [now left|]. intros m Hm. apply H. now right. }
  induction k as [|k IH]; intros n Hk; [lia|]. destruct n as [name [[l w]|l|ty l] s e]; [..|reflexivity]; cbn; apply C; intros n Hn; apply IH; pose proof (syn_size_child Hn); cbn in Hk; lia.
Qed.
