(** Formulas are drawn as they are expected to look. *)
From Coq Require Import String.
From Verif Require Import Base Str Grid Node Spec Autocomplete NameMap Syntax Pratt Grammar Render BaseFacts NameMapFacts RenderFacts DomFacts SightFacts SpecPratt SpecFormula SpecPicture FormulaFacts.
Open Scope list_scope.
Open Scope nat_scope.
Set Implicit Arguments.
Unset Strict Implicit.

Notation rs := default_renderers.
Definition Result : Type := SyntaxNode * Prop * list Dom.
Definition node_of (x : Result) : SyntaxNode := fst (fst x).
Definition cond_of (x : Result) : Prop := snd (fst x).
Definition doms_of (x : Result) : list Dom := snd x.
(** [n] is drawn as [ds] exactly if [P] *)
Definition draws (o : Options) (ri : option RowIndex) (n : SyntaxNode) (P : Prop) (ds : list Dom) : Prop :=
  (P -> exists x, render rs n ri o = Ok x) /\ (forall x, render rs n ri o = Ok x -> P /\ get_elements x = ds).
Definition draws_item (o : Options) (x : Result) : Prop := forall ri, draws o ri (node_of x) (cond_of x) (doms_of x).
Lemma draws_iff o ri n P Q ds : (P <-> Q) -> draws o ri n P ds -> draws o ri n Q ds.
Proof. intros H [A B]. split; [intros q; apply A; tauto|]. intros x Hx. destruct (B x Hx). tauto. Qed.
Lemma one_wrap l : one l = wrap_in_mrow l.
Proof. destruct l as [|d [|d' l]]; reflexivity. Qed.
Lemma mapi_draws (f : nat -> SyntaxNode -> Res Element) items :
  Forall (fun it => forall k, (cond_of it -> exists x, f k (node_of it) = Ok x) /\ (forall x, f k (node_of it) = Ok x -> cond_of it /\ get_elements x = doms_of it)) items -> forall k,
  (Forall cond_of items -> exists xs, mapi_res f k (map node_of items) = Ok xs) /\
  (forall xs, mapi_res f k (map node_of items) = Ok xs -> Forall cond_of items /\ child_doms xs = map (fun it => one (doms_of it)) items /\ List.length xs = List.length items).
Proof.
  induction 1 as [|it items Hit Hl IH]; intros k; cbn [map mapi_res].
  - split; [eauto|]. intros xs H. inv H. auto.
  - destruct (Hit k) as [A B]. destruct (IH (S k)) as [C D]. split.
    + intros H. inv H. destruct (A H2) as [x Ex]. destruct (C H3) as [xs Exs]. rewrite Ex. cbn [bind]. rewrite Exs. cbn. eauto.
    + intros xs H. apply bind_ok in H as (x&Ex&H). apply bind_ok in H as (r&Er&H). inv H. destruct (B _ Ex) as [B1 B2]. destruct (D _ Er) as (D1&D2&D3).
      split; [auto|]. split; [|cbn; auto]. unfold child_doms in *. cbn [map]. rewrite D2, B2. reflexivity.
Qed.
Lemma simple_draws n ri tag o items : syn_children n = Children (map node_of items) -> Forall (draws_item o) items -> items <> [] -> right_number tag (List.length items) = true ->
  (Forall cond_of items -> exists x, simple_container rs n ri tag o = Ok x) /\
  (forall x, simple_container rs n ri tag o = Ok x -> Forall cond_of items /\ get_elements x = [DomElement tag false (map (fun it => one (doms_of it)) items)]).
Proof.
  intros Hn Hi Hne Hr. unfold simple_container, render_children. rewrite Hn.
  destruct (@mapi_draws (fun _ c => render rs c None o) items) with (k := 0) as [A B].
  { eapply Forall_impl; [|exact Hi]. intros it H k. apply (H None). }
  split.
  - intros H. destruct (A H) as [xs Ex]. rewrite Ex. cbn [bind]. destruct (B _ Ex) as (_&_&El). rewrite El, Hr. destruct items; [contradiction|]. cbn. eauto.
  - intros x H. apply bind_ok in H as (xs&Ex&H). destruct (B _ Ex) as (B1&B2&B3). rewrite B3, Hr in H. destruct items; [contradiction|]. cbn in H. inv H. split; [exact B1|]. cbn [get_elements]. fold (child_doms xs). now rewrite B2.
Qed.
Lemma rows_draws n class tag ri items w : syn_children n = NewRows (mkGrid (map node_of items) w) -> S (fst (syn_range n)) = snd (syn_range n) -> Forall (draws_item no_options) items -> items <> [] ->
  (right_number tag (List.length items) = true /\ Forall cond_of items -> exists x, rows_container rs n class tag ri = Ok x) /\
  (forall x, rows_container rs n class tag ri = Ok x -> (right_number tag (List.length items) = true /\ Forall cond_of items) /\
     exists xs, x = mkElement class n ri xs /\ child_doms xs = map (fun it => one (doms_of it)) items).
Proof.
  intros Hn He Hi Hne. unfold rows_container, render_rows. rewrite Hn, He, Nat.eqb_refl. cbn [assert_ bind].
  destruct (@mapi_draws (fun j c => render rs c (Some (fst (syn_range n), j)) no_options) items) with (k := 0) as [A B].
  { eapply Forall_impl; [|exact Hi]. intros it H k. apply (H (Some (fst (syn_range n), k))). }
  split.
  - intros [Hr H]. destruct (A H) as [xs Ex]. rewrite Ex. cbn [bind]. destruct (B _ Ex) as (_&_&El). rewrite El, Hr. destruct items; [contradiction|]. cbn. eauto.
  - intros x H. apply bind_ok in H as (xs&Ex&H). destruct (B _ Ex) as (B1&B2&B3). rewrite B3 in H. destruct (right_number tag (List.length items)) eqn:Hr; [|destruct items; [contradiction|discriminate H]].
    destruct items; [contradiction|]. cbn in H. inv H. eauto.
Qed.

(** ** Tokens *)
Lemma draws_text name ty l s e tag ri o : get_renderer rs name = Some (RenderText tag) -> draws o ri (mkSyntax name (Leaf ty l) s e) True [texts tag false l].
Proof.
  intros H. unfold draws. rewrite render_eq. unfold render_node. cbn [syn_range syn_name syn_children]. rewrite H. split; [eauto|]. intros x E. inv E. split; [exact I|]. reflexivity.
Qed.
Lemma draws_op l s e ri o : draws o ri (mkSyntax SpecFormula.operator_name (Leaf LOperator l) s e) True [texts Tmo (opt_stretchy o) l].
Proof.
  unfold draws. rewrite render_eq. unfold render_node. cbn [syn_range syn_name syn_children].
  change (get_renderer rs SpecFormula.operator_name) with (Some RenderOperator). split; [eauto|]. intros x E. inv E. split; [exact I|]. reflexivity.
Qed.
Lemma draws_children n ri o o' items tag : (forall ri, render rs n ri o = simple_container rs n ri tag o') -> syn_children n = Children (map node_of items) -> Forall (draws_item o') items -> items <> [] ->
  right_number tag (List.length items) = true -> draws o ri n (Forall cond_of items) [DomElement tag false (map (fun it => one (doms_of it)) items)].
Proof. intros Hr Hn Hi Hne Hl. unfold draws. rewrite Hr. now apply simple_draws. Qed.
Lemma blank_items k p : exists items, blank k p = map node_of items /\ (forall o, Forall (draws_item o) items) /\ (Forall cond_of items <-> True) /\ map (fun it => one (doms_of it)) items = gap k.
Proof.
  destruct k as [|k]; [exists []; repeat split; auto|].
  exists [(mkSyntax (named "BuiltIn" "Whitespace") (Leaf LOperator (repeat [32%N] (S k))) p (p + S k), True, [texts Tmspace false (repeat (lit " ") (S k))])].
  split; [reflexivity|]. split; [|split; [|reflexivity]].
  - intros o. constructor; [|constructor]. intros ri. now apply draws_text.
  - split; auto.
Qed.
Lemma draws_spaced name c p before len after ri o P ds : (forall ri, draws o ri (mkSyntax name c (p + before) (p + before + len)) P ds) ->
  draws o ri (spaced name c p before len after) P (with_gaps before ds after).
Proof.
  intros H.
  assert (W : draws o ri (mkSyntax (named "BuiltIn" "Whitespaces") (Children (blank before p ++ mkSyntax name c (p + before) (p + before + len) :: blank after (p + before + len))) p (p + before + len + after)) P
    [mrow (gap before ++ one ds :: gap after)]).
  { destruct (blank_items before p) as (i1&E1&D1&C1&G1). destruct (blank_items after (p + before + len)) as (i2&E2&D2&C2&G2).
    pose (items := i1 ++ (mkSyntax name c (p + before) (p + before + len), P, ds) :: i2).
    eapply draws_iff with (P := Forall cond_of items).
    { unfold items. rewrite Forall_app, C1. split; [intros [_ F]; now inv F|]. intros Hp. split; [exact I|]. constructor; [exact Hp|now apply C2]. }
    replace (gap before ++ one ds :: gap after) with (map (fun it => one (doms_of it)) items) by (unfold items; rewrite map_app; cbn [map]; now rewrite G1, G2).
    apply draws_children with (o' := o).
    - intros ri'. rewrite render_eq. reflexivity.
    - unfold items. rewrite map_app. cbn [map node_of fst]. now rewrite E1, E2.
    - unfold items. apply Forall_app. split; [apply D1|]. constructor; [intros ri'; apply H|apply D2].
    - unfold items. destruct i1; discriminate.
    - reflexivity. }
  unfold spaced, with_gaps. destruct before; [destruct after|]; [apply H|exact W|exact W].
Qed.

(** ** Formulas *)
Definition pictured (f : Formula) : Prop := forall before p ri o, draws o ri (tree before p f) (drawable f) (picture before f).
Definition script_picture (l : list Dom) (u : bool) (b : nat) (a : Formula) : list Dom :=
  [DomElement (script_tag u) false [one l; one (framed (mrow [one (picture b a)]))]].
Definition scripts_picture (l : list Dom) (s : Scripts Formula) : list Dom := fold_left (fun l '(u, b, a, after) => script_picture l u b a) s l.
Definition scripts_drawable (s : Scripts Formula) : Prop := fold_right (fun '(_, _, a, after) rest => (after = 0 /\ drawable a) /\ rest) True s.
Lemma draws_script u lhs b a q k s e ri o P ds : (forall ri o, opt_stretchy o = false -> draws o ri lhs P ds) -> pictured a ->
  draws o ri (mkSyntax (cells_name (script u)) (Children [lhs; spaced SpecFormula.operator_name (NewRows (mkGrid [tree b 0 a] 1)) q 0 1 k]) s e) (P /\ k = 0 /\ drawable a) (script_picture ds u b a).
Proof.
  intros Hl Ha.
  assert (Er : forall n ri, syn_name n = cells_name (script u) -> render rs n ri o = match syn_children n with
      | Children l => _ <- assert_ (is_new_rows (nth_error l 1)) ;; simple_container rs n ri (script_tag u) (mkOptions false (Some ri))
      | _ => throw
      end).
  { intros n ri' E. rewrite render_eq. unfold render_node. destruct (syn_range n). rewrite E. destruct u; reflexivity. }
  destruct k as [|k].
  - eapply draws_iff with (P := Forall cond_of [(lhs, P, ds); (mkSyntax SpecFormula.operator_name (NewRows (mkGrid [tree b 0 a] 1)) (q + 0) (q + 0 + 1), drawable a, framed (mrow [one (picture b a)]))]).
    { split; [intros F; inv F; inv H2; auto|intros (H1&_&H2); constructor; [exact H1|constructor; [exact H2|constructor]]]. }
    unfold draws. rewrite Er by reflexivity. cbn [syn_children nth_error is_new_rows spaced assert_ bind]. apply simple_draws; [reflexivity| |discriminate|destruct u; reflexivity].
    constructor; [intros ri'; now apply Hl|]. constructor; [|constructor]. intros ri'. cbn [node_of cond_of doms_of fst snd]. clear Er Hl.
    pose (items := [(tree b 0 a, drawable a, picture b a)]).
    assert (R : forall n, syn_name n = SpecFormula.operator_name -> forall l w, syn_children n = NewRows (mkGrid l w) -> render rs n ri' (mkOptions false (Some ri)) = rows_container rs n (RowsContainer Tmrow) Tmrow ri).
    { intros n En l w Ec. rewrite render_eq. unfold render_node. destruct (syn_range n). rewrite En, Ec. reflexivity. }
    unfold draws. erewrite R by reflexivity.
    destruct (@rows_draws (mkSyntax SpecFormula.operator_name (NewRows (mkGrid [tree b 0 a] 1)) (q + 0) (q + 0 + 1)) (RowsContainer Tmrow) Tmrow ri items 1) as [A B]; [reflexivity|cbn; lia| |discriminate|].
    { constructor; [|constructor]. intros ri''. apply Ha. }
    split.
    + intros H. apply A. split; [reflexivity|]. constructor; [exact H|constructor].
    + intros x H. destruct (B x H) as ([_ F]&xs&->&E). inv F. split; [assumption|]. cbn [get_elements]. fold (child_doms xs). rewrite E. reflexivity.
  - unfold draws. rewrite Er by reflexivity. cbn. split; [intros (_&?&_); discriminate|]. intros x H. discriminate H.
Qed.
Lemma draws_scripts s : (forall f, in_scripts f s -> pictured f) -> forall n P ds, (forall ri o, opt_stretchy o = false -> draws o ri n P ds) -> forall ri o, opt_stretchy o = false ->
  draws o ri (scripts_tree s n) (P /\ scripts_drawable s) (scripts_picture ds s).
Proof.
  induction s as [|[[[u b] a] k] s IH]; intros Hs n P ds Hn ri o Ho; cbn [scripts_tree fold_left scripts_picture scripts_drawable fold_right].
  - eapply draws_iff; [|now apply Hn]. tauto.
  - eapply draws_iff with (P := (P /\ k = 0 /\ drawable a) /\ scripts_drawable s); [unfold scripts_drawable; tauto|].
    apply IH; [intros f (u'&b'&k'&Hf); apply Hs; exists u', b', k'; now right| |exact Ho].
    intros ri' o' _. cbn [script_tree]. apply draws_script; [exact Hn|]. apply Hs. exists u, b, k. now left.
Qed.
Lemma draws_simple name l s e ri o b items : get_renderer rs name = Some (RenderSimple b) -> l = map node_of items -> Forall (draws_item (mkOptions b None)) items -> items <> [] ->
  draws o ri (mkSyntax name (Children l) s e) (Forall cond_of items) [mrow (map (fun it => one (doms_of it)) items)].
Proof.
  intros Hr -> Hi Hne. apply draws_children with (o' := mkOptions b None); auto. intros ri'. rewrite render_eq. unfold render_node. cbn [syn_range syn_name]. now rewrite Hr.
Qed.
Lemma draws_brackets name p b f ri o o' : pictured f -> (forall ri l s e, render rs (mkSyntax name (Children l) s e) ri o = simple_container rs (mkSyntax name (Children l) s e) ri Tmrow o') -> forall s e,
  draws o ri (mkSyntax name (in_brackets p (tree b (S p) f)) s e) (drawable f) [mrow (mo (opt_stretchy o') (lit "(") ++ one (picture b f) :: mo (opt_stretchy o') (lit ")"))].
Proof.
  intros Hf Hr s e. pose (items := [(op_leaf 40 p, True, mo (opt_stretchy o') (lit "(")); (tree b (S p) f, drawable f, picture b f); (op_leaf 41 (snd (syn_range (tree b (S p) f))), True, mo (opt_stretchy o') (lit ")"))]).
  eapply draws_iff with (P := Forall cond_of items).
  { split; [intros F; inv F; inv H2; assumption|]. intros H. repeat constructor. exact H. }
  apply draws_children with (o' := o') (items := items); [intros; apply Hr|reflexivity| |discriminate|reflexivity].
  constructor; [intros ri'; apply draws_op|]. constructor; [intros ri'; apply Hf|]. constructor; [intros ri'; apply draws_op|constructor].
Qed.
Lemma draws_empty name p ri o o' : (forall ri l s e, render rs (mkSyntax name (Children l) s e) ri o = simple_container rs (mkSyntax name (Children l) s e) ri Tmrow o') -> forall s e,
  draws o ri (mkSyntax name (Children [op_leaf 40 p; op_leaf 41 (S p)]) s e) True [mrow (mo (opt_stretchy o') (lit "(") ++ mo (opt_stretchy o') (lit ")"))].
Proof.
  intros Hr s e. pose (items := [(op_leaf 40 p, True, mo (opt_stretchy o') (lit "(")); (op_leaf 41 (S p), True, mo (opt_stretchy o') (lit ")"))]).
  eapply draws_iff with (P := Forall cond_of items).
  { split; [auto|]. intros H. repeat constructor. }
  apply draws_children with (o' := o') (items := items); [intros; apply Hr|reflexivity| |discriminate|reflexivity].
  constructor; [intros ri'; apply draws_op|]. constructor; [intros ri'; apply draws_op|constructor].
Qed.
Lemma table_lines_eq w : 0 < w -> forall k fuel l, List.length l = k * w -> k <= fuel -> table_rows fuel w l = table_lines w l.
Proof.
  intros Hw k. induction k as [|k IH]; intros fuel l Hl Hf; unfold table_lines; rewrite Hl, Nat.div_mul by lia.
  - destruct l; [|cbn in Hl; lia]. destruct fuel; reflexivity.
  - destruct fuel as [|fuel]; [lia|]. destruct l as [|d l]; [cbn in Hl; lia|]. set (m := d :: l) in *. change (table_rows (S fuel) w m) with
      (create_math_element Tmtr (map (fun x => create_math_element Tmtd [x]) (firstn w m)) :: table_rows fuel w (skipn w m)).
    cbn [seq map]. rewrite Nat.mul_0_l. change (skipn 0 m) with m. f_equal. rewrite IH by (rewrite ?skipn_length; lia). unfold table_lines.
    rewrite skipn_length. replace (List.length m - w) with (k * w) by lia. rewrite Nat.div_mul by lia. rewrite <- seq_shift, map_map. apply map_ext_in. intros r _. do 3 f_equal.
    rewrite skipn_skipn_add. reflexivity.
Qed.
Definition cell_items (cells : list (nat * Formula)) : list Result := map (fun '(b, a) => (tree b 0 a, drawable a, picture b a)) cells.
Definition cells_drawable (cells : list (nat * Formula)) : Prop := fold_right (fun '(_, a) rest => drawable a /\ rest) True cells.
Lemma cells_cond cells : Forall cond_of (cell_items cells) <-> cells_drawable cells.
Proof.
  induction cells as [|[b a] cells IH]; cbn [cell_items map cells_drawable fold_right]; [split; auto|]. rewrite <- IH.
  split; [intros F; inv F; auto|intros [H1 H2]; constructor; auto].
Qed.
Lemma draws_cells v w cells p ri o : In v [Fraction; RootV; Table] -> 0 < w -> cells <> [] -> List.length cells mod w = 0 -> (forall f, in_atom f (ACells v w cells) -> pictured f) ->
  draws o ri (mkSyntax (cells_name v) (NewRows (mkGrid (map (fun '(b, a) => tree b 0 a) cells) w)) p (p + 1)) ((v <> Table -> List.length cells = 2) /\ cells_drawable cells)
    (let l := map (fun '(b, a) => one (picture b a)) cells in
     framed match v with Fraction => DomElement Tmfrac false l | RootV => DomElement Tmroot false (rev l) | _ => DomElement Tmtable false (table_lines w l) end).
Proof.
  intros Hv Hw Hne Hm Hf. set (n := mkSyntax _ _ _ _). pose (items := cell_items cells).
  assert (Hn : syn_children n = NewRows (mkGrid (map node_of items) w)).
  { unfold n, items, cell_items. cbn [syn_children]. rewrite map_map. do 2 f_equal. apply map_ext. intros [b a]. reflexivity. }
  assert (El : List.length items = List.length cells) by apply map_length.
  assert (Ed : map (fun it => one (doms_of it)) items = map (fun '(b, a) => one (picture b a)) cells).
  { unfold items, cell_items. rewrite map_map. apply map_ext. intros [b a]. reflexivity. }
  assert (Hi : Forall (draws_item no_options) items).
  { apply Forall_forall. intros it Hit. apply in_map_iff in Hit as ([b a]&<-&Ha). intros ri'. apply Hf. exists b. exact Ha. }
  assert (Hne' : items <> []) by (intros E; apply Hne; destruct cells; [reflexivity|discriminate E]).
  assert (Hr : S (fst (syn_range n)) = snd (syn_range n)) by (cbn; lia).
  assert (K : forall class tag d, (forall ri, render rs n ri o = rows_container rs n class tag ri) ->
    (forall xs, child_doms xs = map (fun '(b, a) => one (picture b a)) cells -> get_elements (mkElement class n ri xs) = framed d) ->
    draws o ri n (right_number tag (List.length cells) = true /\ cells_drawable cells) (framed d)).
  { intros class tag d E G. destruct (@rows_draws n class tag ri items w Hn Hr Hi Hne') as [A B]. rewrite El in A, B. unfold items in A, B. rewrite cells_cond in A. split.
    - intros H. rewrite E. now apply A.
    - intros x H. rewrite E in H. destruct (B _ H) as (H1&xs&->&H2). rewrite cells_cond in H1. split; [exact H1|]. apply G. now rewrite <- Ed. }
  cbv zeta. destruct Hv as [<-|[<-|[<-|[]]]].
  - eapply draws_iff; [|apply K with (class := RowsContainer Tmfrac) (tag := Tmfrac)].
    + unfold right_number. cbn [expected_children]. rewrite Nat.eqb_eq. split; intros [H1 H2]; split; auto. symmetry. apply H1. discriminate.
    + intros ri'. rewrite render_eq. reflexivity.
    + intros xs E. cbn [get_elements]. fold (child_doms xs). rewrite E. reflexivity.
  - eapply draws_iff; [|apply K with (class := RootElement) (tag := Tmroot)].
    + unfold right_number. cbn [expected_children]. rewrite Nat.eqb_eq. split; intros [H1 H2]; split; auto. symmetry. apply H1. discriminate.
    + intros ri'. rewrite render_eq. reflexivity.
    + intros xs E. cbn [get_elements]. fold (child_doms xs). rewrite E. reflexivity.
  - eapply draws_iff; [|apply K with (class := TableElement) (tag := Tmtable)].
    + split; intros [H1 H2]; split; auto. contradiction.
    + intros ri'. rewrite render_eq. unfold render_node, n. cbn [syn_range syn_name syn_children]. change (get_renderer rs (cells_name Table)) with (Some RenderTable). cbn iota. rewrite map_length.
      replace (0 <? List.length cells) with true by (symmetry; apply Nat.ltb_lt; destruct cells; [contradiction|cbn; lia]). destruct (w =? 0) eqn:E0; [apply Nat.eqb_eq in E0; lia|].
      assert (Hd : (List.length cells + (w - 1)) / w = List.length cells / w).
      { apply Nat.div_exact in Hm; [|lia]. rewrite Hm at 1. rewrite (Nat.mul_comm w), Nat.add_comm, Nat.div_add by lia. rewrite (Nat.div_small (w - 1)) by lia. reflexivity. }
      rewrite Hd, Nat.eqb_refl. reflexivity.
    + intros xs E. cbn [get_elements]. fold (child_doms xs). rewrite E. unfold n. cbn [syn_children gwidth]. unfold framed, create_math_element. do 3 f_equal. rewrite map_length.
      apply Nat.div_exact in Hm; [|lia]. apply table_lines_eq with (k := List.length cells / w); [exact Hw|rewrite map_length; lia|]. apply Nat.div_le_upper_bound; [lia|]. nia.
Qed.
Theorem picture_ok xs xc f : spelled xs xc f -> pictured f.
Proof.
  induction f as [a k IHa|op k s a IHs IHa|a op k s b IHa IHs IHb|a op k IHa IHo] using formula_induction; intros Hs before p ri o.
  - apply spelled_atom in Hs as [Hs Hi]. rewrite tree_atom.
    destruct a as [s l|c l d|c|l| |b a|v w cells]; cbn [drawable picture].
    + apply draws_spaced. intros ri'. now apply draws_text.
    + apply draws_spaced. intros ri'. now apply draws_text.
    + apply draws_spaced. intros ri'. apply draws_text. destruct c; reflexivity.
    + apply draws_spaced. intros ri'. now apply draws_text.
    + apply draws_spaced. intros ri'. apply (@draws_empty (atom_name (AEmpty (F := Formula))) (p + before) ri' o (mkOptions true None)). intros. rewrite render_eq. reflexivity.
    + apply draws_spaced. intros ri'. apply (@draws_brackets (atom_name (ABrackets b a)) (p + before) b a ri' o (mkOptions true None)).
      * apply IHa; [reflexivity|]. now apply Hi.
      * intros. rewrite render_eq. reflexivity.
    + apply draws_spaced. intros ri'. cbn [atom_spelled] in Hs. destruct Hs as (Hv&Hw&Hne&Hm). apply draws_cells; auto.
  - apply spelled_prefix in Hs as (Hs&Ha&_). rewrite tree_prefix. cbn [drawable picture]. fold (scripts_drawable s).
    change (fold_left _ s ?x) with (scripts_picture x s).
    pose (items := [(prefix_value before p op k s, True /\ scripts_drawable s, scripts_picture (with_gaps before (mo false (prefix_text op)) k) s); (tree 0 (end_of (prefix_value before p op k s)) a, drawable a, picture 0 a)]).
    eapply draws_iff with (P := Forall cond_of items).
    { split; [intros F; inv F; inv H2; cbn [cond_of fst snd] in *; tauto|]. intros [H1 H2]. repeat constructor; auto. }
    apply draws_simple with (b := false) (items := items); [destruct op; reflexivity|reflexivity| |discriminate].
    constructor; [|constructor; [intros ri'; now apply IHa|constructor]]. intros ri'. apply draws_scripts; auto. intros ri'' o' Ho. apply draws_spaced. intros ri3. rewrite <- Ho. apply draws_op.
  - apply spelled_infix in Hs as (Ha&Hs&Hb). rewrite tree_infix. cbv zeta. cbn [drawable picture]. fold (scripts_drawable s).
    change (fold_left _ s ?x) with (scripts_picture x s).
    pose (q := p + before + width a).
    pose (items := [(tree before p a, drawable a, picture before a); (infix_value q op k s, True /\ scripts_drawable s, scripts_picture (with_gaps 0 (mo false [infix_char op]) k) s);
      (tree 0 (end_of (infix_value q op k s)) b, drawable b, picture 0 b)]).
    eapply draws_iff with (P := Forall cond_of items).
    { split; [intros F; inv F; inv H2; inv H4; cbn [cond_of fst snd] in *; tauto|]. intros (H1&H2&H3). repeat constructor; auto. }
    apply draws_simple with (b := false) (items := items); [destruct op; reflexivity|reflexivity| |discriminate].
    constructor; [intros ri'; now apply IHa|]. constructor; [|constructor; [intros ri'; now apply IHb|constructor]]. intros ri'. apply draws_scripts; auto. intros ri'' o' Ho. apply draws_spaced. intros ri3. rewrite <- Ho. apply draws_op.
  - apply spelled_postfix in Hs as (Ha&Ho). rewrite tree_postfix. set (q := p + before + width a).
    assert (S1 : forall P ds name, get_renderer rs name = Some (RenderSimple false) ->
      (forall ri, draws (mkOptions false None) ri (mkSyntax SpecFormula.operator_name (postfix_content q op) (q + 0) (q + 0 + List.length (postfix_row op))) P ds) ->
      draws o ri (mkSyntax name (Children [tree before p a; postfix_value q op k]) p (p + before + width (FPostfix a op k))) (drawable a /\ P) [mrow [one (picture before a); one (with_gaps 0 ds k)]]).
    { intros P ds name Hr Hd. pose (items := [(tree before p a, drawable a, picture before a); (postfix_value q op k, P, with_gaps 0 ds k)]).
      eapply draws_iff with (P := Forall cond_of items).
      { split; [intros F; inv F; inv H2; cbn [cond_of fst snd] in *; tauto|]. intros [H1 H2]. repeat constructor; auto. }
      apply draws_simple with (b := false) (items := items); [exact Hr|reflexivity| |discriminate].
      constructor; [intros ri'; now apply IHa|]. constructor; [|constructor]. intros ri'. apply draws_spaced. exact Hd. }
    assert (Eo : forall ri l s e, render rs (mkSyntax SpecFormula.operator_name (Children l) s e) ri (mkOptions false None) = simple_container rs (mkSyntax SpecFormula.operator_name (Children l) s e) ri Tmrow no_options).
    { intros. rewrite render_eq. reflexivity. }
    destruct op as [| |b x|u b x]; cbn [drawable picture].
    + apply S1; [reflexivity|]. intros ri'. apply draws_op.
    + apply S1; [reflexivity|]. intros ri'. apply (@draws_empty SpecFormula.operator_name q ri' (mkOptions false None) no_options Eo).
    + apply S1; [reflexivity|]. intros ri'. apply (@draws_brackets SpecFormula.operator_name q b x ri' (mkOptions false None) no_options); [|exact Eo]. apply IHo; [reflexivity|]. now apply Ho.
    + apply draws_script; [intros ri' o' _; now apply IHa|]. apply IHo; [reflexivity|]. now apply Ho.
Qed.
