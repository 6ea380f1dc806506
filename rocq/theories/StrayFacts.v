(** Which row a click reports for what is drawn in a row, for all documents. *)
From Coq Require Import String.
From Verif Require Import Base Str Grid Node Focus Autocomplete Spec NameMap Syntax Pratt Grammar SyntaxFind Render Layout SpecSyntax SpecPratt SpecRender SpecClick SpecStray
  BaseFacts GridFacts TreeFacts ParseFacts ParseTotal GrammarFacts FindFacts ShapeFacts RenderFacts LayoutFacts ClickFacts ClosestFacts NameMapFacts.
Open Scope list_scope.
Open Scope nat_scope.
Set Implicit Arguments.
Unset Strict Implicit.

Lemma mapi_nth A B (f : nat -> A -> Res B) l : forall k xs j y, mapi_res f k l = Ok xs -> nth_error xs j = Some y -> exists n, nth_error l j = Some n /\ f (k + j) n = Ok y.
Proof.
  induction l as [|n l IH]; intros k xs j y H E; cbn [mapi_res] in H; [inv H; destruct j; discriminate|]. apply bind_ok in H as (x&Ex&H). apply bind_ok in H as (r&Er&H). inv H.
  destruct j as [|j]; cbn in E; [inv E; exists n; now rewrite Nat.add_0_r|]. destruct (IH _ _ _ _ Er E) as (m&Em&Ef). exists m. replace (k + S j) with (S k + j) by lia. auto.
Qed.

Section Stray.
Variable xs xc : N -> bool.
Notation g := (default_grammar xs xc).
Notation rs := default_renderers.
Let Ht : no_empty_tokens g := @default_no_empty_tokens xs xc.
Let Hc : all_containers g := @default_all_containers xs xc.

(** ** Drawing *)
Lemma render_cases n ri o x : render rs n ri o = Ok x -> el_tree x = n /\
  ((get_children x = [] /\ el_row_index x = ri) \/
   (exists name l s e o', n = mkSyntax name (Children l) s e /\ mapi_res (fun _ c => render rs c None o') 0 l = Ok (get_children x) /\ el_row_index x = ri /\
     ((opt_override o' = None /\ forall tag, get_renderer rs name <> Some (RenderScript tag)) \/ (o' = o /\ get_renderer rs name = Some RenderWhitespaces) \/
      (o' = mkOptions false (Some ri) /\ (exists tag, get_renderer rs name = Some (RenderScript tag)) /\ is_new_rows (nth_error l 1) = true))) \/
   (exists name l w s, n = mkSyntax name (NewRows (mkGrid l w)) s (S s) /\ mapi_res (fun j c => render rs c (Some (s, j)) no_options) 0 l = Ok (get_children x) /\
     ((el_row_index x = ri /\ get_renderer rs name <> Some RenderOperator) \/ (get_renderer rs name = Some RenderOperator /\ opt_override o = Some (el_row_index x))))).
Proof.
  rewrite render_eq. intros H.
  assert (S1 : forall tag o', simple_container rs n ri tag o' = Ok x -> el_tree x = n /\ exists name l s e, n = mkSyntax name (Children l) s e /\
    mapi_res (fun _ c => render rs c None o') 0 l = Ok (get_children x) /\ el_row_index x = ri).
  { intros tag o' Hy. unfold simple_container in Hy. apply bind_ok in Hy as (ys&Ex&Hy). apply bind_ok in Hy as (?&_&Hy). apply bind_ok in Hy as (?&_&Hy). inv Hy. split; [reflexivity|].
    destruct n as [name c s e]. cbn [syn_children render_children] in *. destruct c as [|l|]; try discriminate Ex. exists name, l, s, e. auto. }
  assert (S2 : forall class tag r, rows_container rs n class tag r = Ok x -> el_tree x = n /\ exists name l w s, n = mkSyntax name (NewRows (mkGrid l w)) s (S s) /\
    mapi_res (fun j c => render rs c (Some (s, j)) no_options) 0 l = Ok (get_children x) /\ el_row_index x = r).
  { intros class tag r Hy. unfold rows_container in Hy. apply bind_ok in Hy as (?&He&Hy). apply bind_ok in Hy as (ys&Ex&Hy). apply bind_ok in Hy as (?&_&Hy). apply bind_ok in Hy as (?&_&Hy). inv Hy. split; [reflexivity|].
    apply assert_inv in He. destruct n as [name c s e]. cbn [syn_children syn_range fst snd render_rows] in *. destruct c as [[l w]| |]; try discriminate Ex. apply Nat.eqb_eq in He. subst e. exists name, l, w, s. auto. }
  unfold render_node in H. destruct n as [name c s e]. cbn [syn_range syn_name syn_children] in H, S1, S2.
  destruct (get_renderer rs name) as [r|] eqn:Er; [|discriminate H]. destruct r as [|tag| | |tag|tag| | | |b].
  - destruct c as [|[|]|]; try discriminate H. apply bind_ok in H as (?&He&H). inv H. auto.
  - destruct c; try discriminate H. inv H. auto.
  - destruct (S1 _ _ H) as (E&nm&l&s'&e'&En&Em&Ei). inv En. split; [exact E|]. right. left. exists nm, l, s', e', o. auto 8.
  - destruct c as [gr|l|ty l].
    + destruct (opt_override o) as [r|] eqn:Eo; [|discriminate H]. destruct (S2 _ _ _ H) as (E&nm&l&w&s'&En&Em&Ei). inv En. split; [exact E|]. right. right. exists nm, l, w, s'. auto 6.
    + destruct (S1 _ _ H) as (E&nm&l'&s'&e'&En&Em&Ei). inv En. split; [exact E|]. right. left. exists nm, l', s', e', no_options. repeat split; auto. left. split; [reflexivity|]. rewrite Er. discriminate.
    + inv H. auto.
  - destruct (S2 _ _ _ H) as (E&nm&l&w&s'&En&Em&Ei). inv En. split; [exact E|]. right. right. exists nm, l, w, s'. repeat split; auto. left. split; [reflexivity|]. rewrite Er. discriminate.
  - destruct c as [gr|l|ty l]; try discriminate H. apply bind_ok in H as (?&Ha&H). apply assert_inv in Ha. destruct (S1 _ _ H) as (E&nm&l'&s'&e'&En&Em&Ei). inv En. split; [exact E|]. right. left.
    exists nm, l', s', e', (mkOptions false (Some (el_row_index x))). repeat split; auto. right. right. eauto.
  - destruct (S2 _ _ _ H) as (E&nm&l&w&s'&En&Em&Ei). inv En. split; [exact E|]. right. right. exists nm, l, w, s'. repeat split; auto. left. split; [reflexivity|]. rewrite Er. discriminate.
  - destruct c as [[l w]|l|ty l]; try discriminate H. apply bind_ok in H as (?&_&H). apply bind_ok in H as (?&_&H).
    destruct (S2 _ _ _ H) as (E&nm&l'&w'&s'&En&Em&Ei). inv En. split; [exact E|]. right. right. exists nm, l', w', s'. repeat split; auto. left. split; [reflexivity|]. rewrite Er. discriminate.
  - destruct c as [|[|]|]; try discriminate H. apply bind_ok in H as (?&He&H). inv H. auto.
  - destruct (S1 _ _ H) as (E&nm&l&s'&e'&En&Em&Ei). inv En. split; [exact E|]. right. left. exists nm, l, s', e', (mkOptions b None). repeat split; auto. left. split; [reflexivity|]. rewrite Er. discriminate.
Qed.

(** ** Trees in which the override is not used *)
Definition row_operator (n : SyntaxNode) : Prop := get_renderer rs (syn_name n) = Some RenderOperator /\ exists gr, syn_children n = NewRows gr.
Definition plain_node (n : SyntaxNode) : Prop := ~ row_operator n /\ get_renderer rs (syn_name n) <> Some RenderWhitespaces.
Definition quiet (n : SyntaxNode) : Prop := ~ row_operator n /\
  (get_renderer rs (syn_name n) = Some RenderWhitespaces -> forall l c, syn_children n = Children l -> In c l -> plain_node c).
Lemma plain_quiet n : plain_node n -> quiet n.
Proof. intros [H1 H2]. split; [exact H1|]. intros E. contradiction. Qed.
Lemma rule_named P : forallb P (map rule_name (g_rules g)) = true -> forall r, In r (g_rules g) -> P (rule_name r) = true.
Proof. intros H r Hr. rewrite forallb_forall in H. apply H, in_map, Hr. Qed.
Lemma op_named sel op : (forall r o, sel r = Some o -> rule_name r = op_name o) -> In op (g_ops sel g) -> exists r, In r (g_rules g) /\ rule_name r = op_name op.
Proof. intros Hs H. apply ops_in in H as (r&Hr&E). exists r. auto. Qed.
Definition other_renderer (name : PathIdentifier) : bool := match get_renderer rs name with Some (RenderOperator | RenderWhitespaces) => false | _ => true end.
Lemma ordinary_rules r : In r (g_rules g) -> match r with NameOnly _ => True | _ => other_renderer (rule_name r) = true end.
Proof.
  assert (F : forallb (fun r => match r with NameOnly _ => true | _ => other_renderer (rule_name r) end) (g_rules g) = true) by (vm_compute; reflexivity).
  rewrite forallb_forall in F. intros H. specialize (F _ H). destruct r; auto.
Qed.
Lemma other_plain name c s e : other_renderer name = true -> plain_node (mkSyntax name c s e).
Proof. unfold other_renderer, plain_node, row_operator. cbn [syn_name]. intros H. split; [intros [E _]|intros E]; rewrite E in H; discriminate H. Qed.
Lemma space_plain s e : plain_node (space_leaf s e).
Proof. apply other_plain. vm_compute. reflexivity. Qed.
Lemma tree_quiet row s e n : tree g row s e n -> quiet n.
Proof.
  intros H. inv H.
  - apply plain_quiet, other_plain. vm_compute. reflexivity.
  - apply plain_quiet, other_plain. vm_compute. reflexivity.
  - apply plain_quiet, other_plain. vm_compute. reflexivity.
  - apply plain_quiet, other_plain. apply ops_in in H0 as (r&Hr&E). apply ordinary_rules in Hr. destruct r; inv E; exact Hr.
  - apply plain_quiet, other_plain. apply ops_in in H0 as (r&Hr&E). apply ordinary_rules in Hr. destruct r; inv E; exact Hr.
  - apply plain_quiet, other_plain. apply ops_in in H0 as (r&Hr&E). apply ordinary_rules in Hr. destruct r; inv E; exact Hr.
  - apply atoms_in in H0. apply ordinary_rules in H0. cbn [rule_name] in H0. inv H1.
    assert (Hn : plain_node (mkSyntax name c a b)) by now apply other_plain.
    assert (Hb : forall y, before = Some y -> plain_node y) by (intros y ->; inv H; apply space_plain).
    assert (Ha : forall y, after = Some y -> plain_node y) by (intros y ->; inv H3; apply space_plain).
    unfold wrap. destruct before as [y|], after as [z|]; [..|now apply plain_quiet]; (split; [intros [_ (gr&E)]; discriminate E|]); intros _ l d E Hd; cbn [syn_children] in E; inv E;
      cbn [In] in Hd; repeat (destruct Hd as [<-|Hd]; [auto|]); contradiction.
Qed.
(** A row that is a script as a whole: something quiet with a script behind it, at the end of the row *)
Lemma script_rule r : In r (g_rules g) -> (rule_name r = sub_rule_name \/ rule_name r = sup_rule_name) -> exists k v, r = RPostfix (rule_name r) k (TContainer v).
Proof.
  assert (F : forallb (fun r => negb (path_eqb (rule_name r) sub_rule_name || path_eqb (rule_name r) sup_rule_name) || match r with RPostfix _ _ (TContainer _) => true | _ => false end) (g_rules g) = true) by (vm_compute; reflexivity).
  rewrite forallb_forall in F. intros Hr Hn. specialize (F _ Hr). assert (E : path_eqb (rule_name r) sub_rule_name || path_eqb (rule_name r) sup_rule_name = true).
  { destruct Hn as [->| ->]; vm_compute; reflexivity. }
  rewrite E in F. destruct r as [| | | | |name k t]; try discriminate F. destruct t; try discriminate F. cbn. eauto.
Qed.
Lemma script_whole row n : parse g row = Ok n -> script_row xs xc row = true -> (forall l, syn_children n = Children l -> is_new_rows (nth_error l 1) = true) ->
  exists name a v m l w, n = mkSyntax name (Children [a; v]) 0 (List.length row) /\ quiet a /\ S m = List.length row /\ syn_range a = (0, m) /\ v = mkSyntax operator_rule_name (NewRows (mkGrid l w)) m (S m).
Proof.
  intros En Hs Hn. unfold script_row in Hs. rewrite En in Hs. apply (parse_shape Ht) in En.
  assert (Hname : syn_name n = sub_rule_name \/ syn_name n = sup_rule_name) by (apply orb_prop in Hs as [H|H]; apply path_eqb_eq in H; auto). clear Hs.
  assert (X : forall name, In name [syn_name (missing_at 0); error_missing_operator_name; error_unknown_token_name; whitespaces_rule_name] -> ~ (name = sub_rule_name \/ name = sup_rule_name)).
  { intros name Hin H. assert (F : forallb (fun name => negb (path_eqb name sub_rule_name || path_eqb name sup_rule_name)) [syn_name (missing_at 0); error_missing_operator_name; error_unknown_token_name; whitespaces_rule_name] = true) by (vm_compute; reflexivity).
    rewrite forallb_forall in F. specialize (F _ Hin). destruct H as [->| ->]; vm_compute in F; discriminate F. }
  remember 0 as z eqn:Ez. remember (List.length row) as len eqn:El. inv En.
  - exfalso. apply (X (syn_name (missing_at 0))); [now left|exact Hname].
  - exfalso. apply (X error_missing_operator_name); [cbn; auto|exact Hname].
  - exfalso. apply (X error_unknown_token_name); [cbn; auto|exact Hname].
  - exfalso. apply ops_in in H as (r&Hr&E). destruct r; inv E; apply script_rule in Hr as (?&?&Hr); [discriminate Hr|exact Hname].
  - exfalso. apply ops_in in H as (r&Hr&E). destruct r; inv E; apply script_rule in Hr as (?&?&Hr); [discriminate Hr|exact Hname|discriminate Hr|exact Hname].
  - specialize (Hn _ eq_refl). cbn [nth_error] in Hn. apply tree_range in H0 as Hr. inv H1. destruct before, after; try discriminate Hn. cbn [wrap is_new_rows] in Hn.
    apply spaces_range in H2 as [_ E1], H4 as [_ E2]. cbn in E1, E2. subst a0 b. destruct c as [[l w]| |]; try discriminate Hn. inv H3.
    exists (op_name op), a, (mkSyntax operator_rule_name (NewRows (mkGrid l w)) m (S m)), m, l, w. split; [cbn [wrap]; congruence|]. split; [eapply tree_quiet; eassumption|]. auto.
  - exfalso. apply atoms_in in H. inv H0. unfold wrap in Hname. destruct before, after; try (apply (X whitespaces_rule_name); [cbn; auto|exact Hname]).
    cbn [syn_name] in Hname. apply script_rule in H as (k&v&H); [discriminate H|exact Hname].
Qed.

(** ** The indices on the way *)
Definition last_index (p : RowIndices) : option RowIndex := last (map Some p) None.
Lemma last_cons A (l : list A) : forall a d, last (a :: l) d = last l a.
Proof. induction l as [|b l IH]; intros a d; [reflexivity|]. change (last (a :: b :: l) d) with (last (b :: l) d). now rewrite !IH. Qed.
Lemma reported_from_snoc row k j p : forall row0 i, row_get row0 p = Some row ->
  reported_from xs xc row0 i (p ++ [(k, j)]) = reported_from xs xc row0 i p ++ twice xs xc row (last (map Some p) i) k ++ [(k, j)].
Proof.
  induction p as [|[k' j'] p IH]; intros row0 i H; cbn [row_get app map] in *.
  - inv H. cbn [reported_from app last]. f_equal. destruct (nth_error row k) as [[v c|]|]; auto. destruct (nth_error (gvalues c) j); reflexivity.
  - cbn [reported_from]. destruct (nth_error row0 k') as [[v c|]|]; try discriminate H. destruct (nth_error (gvalues c) j') as [cell|]; [|discriminate H].
    rewrite (IH _ (Some (k', j')) H), <- app_assoc. cbn [app]. do 3 f_equal. f_equal. f_equal. symmetry. apply last_cons.
Qed.
Variable doc : InputRow.
Hypothesis Hwf : wf_row doc.
Notation reported := (reported xs xc doc).
Lemma reported_snoc p row k j : row_get doc p = Some row -> reported (p ++ [(k, j)]) = reported p ++ twice xs xc row (last_index p) k ++ [(k, j)].
Proof. apply reported_from_snoc. Qed.
Lemma last_snoc p i : last_index (p ++ [i]) = Some i.
Proof. unfold last_index. rewrite map_app. apply last_last. Qed.

Notation nonempty_leaves := (leaves (fun _ _ l => l <> [])).
Definition basis (p : RowIndices) (row : InputRow) (x : Element) (s e : nat) (ri : option RowIndex) (o : Options) : Prop :=
  row_get doc p = Some row /\ gtree (P g) row s e (el_tree x) /\ e <= List.length row /\ render rs (el_tree x) ri o = Ok x /\ nonempty_leaves (el_tree x).
(** The element of a row, an element in a row, and the script of a row that is a script as a whole *)
Definition top (p : RowIndices) (indices : RowIndices) (x : Element) : Prop :=
  exists row, basis p row x 0 (List.length row) (last_index p) no_options /\ parse g row = Ok (el_tree x) /\ indices = reported p.
Definition inner (p : RowIndices) (indices : RowIndices) (x : Element) : Prop :=
  exists row s e o, basis p row x s e None o /\ (calm (opt_override o) \/ quiet (el_tree x)) /\ indices = reported p /\
    (last_index p <> None -> script_row xs xc row = true -> e < List.length row).
Definition stray (p : RowIndices) (indices : RowIndices) (x : Element) : Prop :=
  exists row m o i, basis p row x m (S m) None o /\ indices = reported p ++ [i] /\ last_index p = Some i /\ script_row xs xc row = true /\ S m = List.length row /\
    el_row_index x = Some i /\ exists name l w, el_tree x = mkSyntax name (NewRows (mkGrid l w)) m (S m).
Definition part p indices x : Prop := top p indices x \/ inner p indices x \/ stray p indices x.

Lemma top_index p indices x : top p indices x -> el_row_index x = last_index p.
Proof.
  intros (row&(_&_&_&R&_)&_). apply render_cases in R as (_&[[_ E]|[(?&?&?&?&?&_&_&E&_)|(?&?&?&?&_&_&[[E _]|[_ E]])]]); auto. discriminate E.
Qed.
Lemma inner_index p indices x : inner p indices x -> el_row_index x = None.
Proof.
  intros (row&s&e&o&(_&_&_&R&_)&Hq&_). apply render_cases in R as (_&[[_ E]|[(?&?&?&?&?&_&_&E&_)|(name&l&w&s'&En&_&[[E _]|[Hr E]])]]); auto.
  destruct Hq as [[Hq|Hq]|[Hq _]]; rewrite ?Hq in E; try discriminate E; [now inv E|]. exfalso. apply Hq. split; [rewrite En; exact Hr|rewrite En; eexists; reflexivity].
Qed.
Lemma rows_child p row x s e ri o name l w s' j c : basis p row x s e ri o -> el_tree x = mkSyntax name (NewRows (mkGrid l w)) s' (S s') -> nth_error (get_children x) j = Some c ->
  s' = s /\ e = S s /\ el_row_index c = Some (s, j) /\ (reported (p ++ [(s, j)]) = reported p ++ twice xs xc row (last_index p) s ++ [(s, j)]) /\
  top (p ++ [(s, j)]) (reported (p ++ [(s, j)])) c.
Proof.
  intros (Er&T&He&R&L) En Ec. rewrite En in T, L. apply gtree_rows_inv in T as (->&->&v&cells&Ev&F2). do 2 (split; [reflexivity|]).
  apply render_cases in R as (_&[[E _]|[(?&?&?&?&?&E&_)|(name'&l'&w'&s'&E&Em&_)]]); [rewrite E in Ec; destruct j; discriminate Ec|rewrite En in E; discriminate E|]. rewrite En in E. inv E.
  destruct (mapi_nth Em Ec) as (n&Enl&Rc). cbn [Nat.add] in Rc. destruct (Forall2_nth_r F2 Enl) as (cell&Ecell&HP).
  assert (Hwr : wf_row row) by (eapply row_get_wf; eauto).
  assert (Hwc : wf_row cell). { pose proof (wf_row_nth Hwr Ev) as Hn. apply wf_container_inv in Hn as (_&_&_&Hx). apply Hx. eapply nth_error_In; eauto. }
  assert (Ecd : row_get doc (p ++ [(s', j)]) = Some cell) by (rewrite row_get_snoc, Er, Ev; exact Ecell).
  pose proof (P_parse Ht Hc Hwc HP) as Ep. destruct (parse_gtree Ht Hc Hwc) as (m'&Em'&Tm). rewrite Ep in Em'. inv Em'.
  assert (Et : el_tree c = m') by (now apply render_cases in Rc). 
  assert (Tc : top (p ++ [(s', j)]) (reported (p ++ [(s', j)])) c).
  { exists cell. split; [|split; [now rewrite Et|reflexivity]]. unfold basis. rewrite Et, last_snoc. repeat split; auto. apply (all_leaves_in L). eapply nth_error_In; eauto. }
  split; [rewrite (top_index Tc); apply last_snoc|]. split; [now apply reported_snoc|exact Tc].
Qed.
Lemma gtiles_nth Q row s e l k n : gtiles Q row s e l -> nth_error l k = Some n -> exists s' e', gtree Q row s' e' n /\ e' <= e.
Proof. intros T H. eapply gtiles_in; [exact T|]. eapply nth_error_In; eauto. Qed.
Lemma renderer_in name r : get_renderer rs name = Some r -> In (name, r) rs.
Proof.
  unfold get_renderer. generalize rs. induction r0 as [|[k v] l IH]; intros E; [discriminate|]. cbn in E. destruct (path_eqb name k) eqn:Ek; [apply path_eqb_eq in Ek; inv E; now left|]. right. auto.
Qed.
Lemma script_named name tag : get_renderer rs name = Some (RenderScript tag) -> path_eqb name sub_rule_name || path_eqb name sup_rule_name = true.
Proof.
  assert (F : forallb (fun e => match snd e with RenderScript _ => path_eqb (fst e) sub_rule_name || path_eqb (fst e) sup_rule_name | _ => true end) rs = true) by (vm_compute; reflexivity).
  rewrite forallb_forall in F. intros H. apply renderer_in in H. apply F in H. exact H.
Qed.
(** A child is in the same row, or it is the element of a row of the container that is drawn. *)
Lemma part_child p indices x k c : part p indices x -> nth_error (get_children x) k = Some c -> let indices' := add_row_index indices (el_row_index c) in
  ((inner p indices' c \/ (stray p indices' c /\ k = 1 /\ top p indices x)) /\ exists l, syn_children (el_tree x) = Children l) \/
  (exists s gr, el_row_index c = Some (s, k) /\ top (p ++ [(s, k)]) indices' c /\ syn_range (el_tree x) = (s, S s) /\ syn_children (el_tree x) = NewRows gr).
Proof.
  intros H Ec. cbv zeta.
  assert (Sub : forall row s e ri o name l s0 e0 o' ss, basis p row x s e ri o -> el_tree x = mkSyntax name (Children l) s0 e0 ->
    mapi_res (fun _ c => render rs c None o') 0 l = Ok (get_children x) -> (calm (opt_override o') \/ forall n, nth_error l k = Some n -> quiet n) ->
    (last_index p <> None -> script_row xs xc row = true -> forall n, nth_error l k = Some n -> snd (syn_range n) < List.length row) -> ss = reported p -> inner p ss c).
  { intros row s e ri o name l s0 e0 o' ss (Er&T&He&R&L) En Em Hq Hl ->. destruct (mapi_nth Em Ec) as (n&Enl&Rc). rewrite En in T, L. apply gtree_children_inv in T. destruct (gtiles_nth T Enl) as (s'&e'&Tn&He').
    assert (Et : el_tree c = n) by (now apply render_cases in Rc). exists row, s', e', o'. unfold basis. rewrite Et. split; [|split; [|split; [reflexivity|]]].
    - repeat split; auto; [lia|]. apply (all_leaves_in L). eapply nth_error_In; eauto.
    - destruct Hq as [Hq|Hq]; auto.
    - intros H1 H2. specialize (Hl H1 H2 n Enl). rewrite (gtree_range Tn) in Hl. exact Hl. }
  destruct H as [(row&B&Ep&Ei)|[H|H]].
  - assert (Htop : top p indices x) by (exists row; auto). pose proof B as (Er&T&He&R&L). apply render_cases in R as (_&[[E _]|[(name&l&s0&e0&o'&En&Em&Ex&Ho)|(name&l&w&s0&En&Em&_)]]).
    + rewrite E in Ec. destruct k; discriminate Ec.
    + left. split; [|rewrite En; cbn; eauto].
      destruct (script_row xs xc row) eqn:Es.
      * assert (Hr : exists tag, get_renderer rs name = Some (RenderScript tag)).
        { unfold script_row in Es. rewrite Ep, En in Es. cbn [syn_name] in Es. apply orb_prop in Es as [Es|Es]; apply path_eqb_eq in Es; rewrite Es; eexists; vm_compute; reflexivity. }
        destruct Hr as (tag&Hr). destruct Ho as [[_ Ho]|[[_ Ho]|(->&_&Hn)]]; [elim (Ho _ Hr)|rewrite Hr in Ho; discriminate Ho|].
        assert (Hn' : forall l0, syn_children (el_tree x) = Children l0 -> is_new_rows (nth_error l0 1) = true) by (rewrite En; cbn; intros l0 E; now inv E).
        destruct (script_whole Ep Es Hn') as (name'&a&v&m&cells&w&Ew&Qa&Hm&Ra&->). rewrite En in Ew. inv Ew.
        destruct k as [|[|k]]; [| |destruct (mapi_nth Em Ec) as (?&X&_); destruct k; discriminate X].
        -- assert (I : inner p (reported p) c).
           { eapply Sub; [exact B|exact En|exact Em|right; intros n X; now inv X|intros _ _ n X; inv X; rewrite Ra; cbn; lia|reflexivity]. }
           rewrite (inner_index I). left. exact I.
        -- destruct (last_index p) as [i|] eqn:Ei.
           ++ destruct (mapi_nth Em Ec) as (n&X&Rc). inv X. pose proof Rc as Rc'. apply render_cases in Rc' as (Et&Hcs).
              assert (Exi : el_row_index c = Some i).
              { destruct Hcs as [[Z _]|[(?&?&?&?&?&Z&_)|(?&?&?&?&Z&_&[[_ Y]|[_ Y]])]]; [|discriminate Z|inv Z; elim Y; vm_compute; reflexivity|cbn [opt_override] in Y; congruence].
                revert Rc. rewrite render_eq. unfold render_node. cbn [syn_name syn_children]. replace (get_renderer rs operator_rule_name) with (Some RenderOperator) by (vm_compute; reflexivity). cbn [opt_override].
                unfold rows_container. intros Hy. apply bind_ok in Hy as (?&_&Hy). apply bind_ok in Hy as (ys&_&Hy). apply bind_ok in Hy as (?&_&Hy). apply bind_ok in Hy as (?&_&Hy). inv Hy. reflexivity. }
              rewrite Exi. cbn [add_row_index]. right. split; [|split; [reflexivity|exact Htop]]. exists row, m, (mkOptions false (Some (Some i))), i. rewrite Et. unfold basis. rewrite Et. rewrite En in T, L. apply gtree_children_inv in T.
              apply gtiles_cons_inv in T as (m1&T1&T). apply gtiles_cons_inv in T as (m2&T2&_). assert (m2 = S m /\ m1 = m) as [-> ->].
              { pose proof (gtree_range T2) as Z. cbn in Z. inv Z. auto. }
              split; [split; [exact Er|split; [exact T2|split; [lia|split; [exact Rc|]]]]; apply (all_leaves_in L); cbn; auto|]. split; [reflexivity|]. do 4 (split; [auto; fail|]). eauto.
           ++ assert (I : inner p (reported p) c).
              { eapply Sub; [exact B|exact En|exact Em|left; right; reflexivity|intros X; congruence|reflexivity]. }
              rewrite (inner_index I). left. exact I.
      * assert (I : inner p indices c).
        { eapply Sub; [exact B|exact En|exact Em| |intros _ X; rewrite Es in X; discriminate X|exact Ei]. destruct Ho as [[Ho _]|[[-> _]|(->&(tag&Ho)&_)]]; [left; now left|left; now left|].
          exfalso. unfold script_row in Es. rewrite Ep, En in Es. cbn [syn_name] in Es. rewrite (script_named Ho) in Es. discriminate Es. }
        rewrite (inner_index I). left. exact I.
    + right. destruct (rows_child B En Ec) as (->&E&Hi&Hr&Tc). exists 0, (mkGrid l w). rewrite Hi. cbn [add_row_index]. rewrite En. split; [reflexivity|]. split; [|auto].
      assert (Es : script_row xs xc row = false).
      { destruct (script_row xs xc row) eqn:Es; [|reflexivity]. exfalso. destruct (script_whole Ep Es) as (?&?&?&?&?&?&Ew&_); [rewrite En; intros ? Z; discriminate Z|]. rewrite En in Ew. discriminate Ew. }
      rewrite Ei. enough (Z : reported (p ++ [(0, k)]) = reported p ++ [(0, k)]) by (rewrite Z in Tc; exact Tc). rewrite Hr. unfold twice. rewrite Es. destruct (last_index p); reflexivity.
  - pose proof H as (row&s&e&o&B&Hq&->&Hl). pose proof B as (Er&T&He&R&L). apply render_cases in R as (_&[[E _]|[(name&l&s0&e0&o'&En&Em&Ex&Ho)|(name&l&w&s0&En&Em&_)]]).
    + rewrite E in Ec. destruct k; discriminate Ec.
    + left. split; [|rewrite En; cbn; eauto]. assert (I : inner p (reported p) c).
      { eapply Sub; [exact B|exact En|exact Em| | |reflexivity].
        - destruct Ho as [[Ho _]|[[-> Ho]|(->&_&_)]]; [left; now left| |left; right; reflexivity]. destruct Hq as [Hq|[_ Hq]]; [now left|]. right. intros n Hn. apply plain_quiet.
          rewrite En in Hq. apply (Hq Ho l n); [reflexivity|]. eapply nth_error_In; eauto.
        - intros H1 H2 n Hn. specialize (Hl H1 H2). rewrite En in T. apply gtree_children_inv in T. destruct (gtiles_nth T Hn) as (s'&e'&Tn&He'). rewrite (gtree_range Tn). cbn. lia. }
      rewrite (inner_index I). left. exact I.
    + right. destruct (rows_child B En Ec) as (->&->&Hi&Hr&Tc). exists s, (mkGrid l w). rewrite Hi. cbn [add_row_index]. rewrite En. split; [reflexivity|]. split; [|auto].
      enough (Z : reported (p ++ [(s, k)]) = reported p ++ [(s, k)]) by (rewrite Z in Tc; exact Tc). rewrite Hr. unfold twice. destruct (last_index p) as [i|]; [|reflexivity].
      destruct (script_row xs xc row) eqn:Es; [|reflexivity]. cbn [andb]. destruct (Nat.eqb_spec (S s) (List.length row)); [|reflexivity]. specialize (Hl ltac:(discriminate) eq_refl). lia.
  - pose proof H as (row&m&o&i&B&->&Ei&Es&Em&Ex&name&l&w&En). right. destruct (rows_child B En Ec) as (_&_&Hi&Hr&Tc). exists m, (mkGrid l w). rewrite Hi. cbn [add_row_index]. rewrite En. split; [reflexivity|]. split; [|auto].
    enough (Z : reported (p ++ [(m, k)]) = (reported p ++ [i]) ++ [(m, k)]) by (rewrite Z in Tc; exact Tc). rewrite Hr. unfold twice. rewrite Ei, Es, Em, Nat.eqb_refl. cbn [andb app]. now rewrite <- app_assoc.
Qed.

Lemma part_same p indices x k c : inner p indices c \/ (stray p indices c /\ k = 1 /\ x) -> part p indices c.
Proof. intros [H|[H _]]; [right; now left|right; now right]. Qed.
Lemma part_basis p indices x : part p indices x -> exists row s e ri o, basis p row x s e ri o.
Proof. intros [(row&B&_)|[(row&s&e&o&B&_)|(row&m&o&i&B&_)]]; eauto 8. Qed.
Lemma within_part a d : within a d -> forall p, part p (snd a) (fst (fst a)) ->
  exists path, snd (fst d) = snd (fst a) ++ path /\ part (p ++ drawn_row (fst (fst a)) path) (snd d) (fst (fst d)).
Proof.
  induction 1 as [a|x pre indices k c d E _ IH]; intros p H; cbn [fst snd] in *.
  - exists []. rewrite !app_nil_r. auto.
  - destruct (part_child H E) as [[Hp (l&El)]|(s&gr&Ei&Hp&Er&El)].
    + destruct (IH _ (part_same Hp)) as (path&Ep&Hd). exists (k :: path). rewrite Ep, <- app_assoc. split; [reflexivity|]. cbn [drawn_row]. rewrite E, El. exact Hd.
    + destruct (IH _ (or_introl Hp)) as (path&Ep&Hd). exists (k :: path). rewrite Ep, <- app_assoc. split; [reflexivity|]. cbn [drawn_row]. rewrite E, El, Er. cbn [fst]. rewrite app_assoc. exact Hd.
Qed.
Lemma drawn_app path : forall x path' y, get_path x path = Some y -> drawn_row x (path ++ path') = drawn_row x path ++ drawn_row y path'.
Proof.
  induction path as [|k path IH]; intros x path' y H; cbn [get_path app drawn_row] in *; [now inv H|].
  destruct (nth_error (get_children x) k) as [c|]; [|discriminate H]. rewrite (IH _ path' _ H). now rewrite app_assoc.
Qed.
Lemma within_path a d : within a d -> exists path, snd (fst d) = snd (fst a) ++ path /\ get_path (fst (fst a)) path = Some (fst (fst d)).
Proof.
  induction 1 as [a|x pre indices k c d E _ (path&Ep&Hd)]; cbn [fst snd] in *; [exists []; rewrite app_nil_r; auto|].
  exists (k :: path). rewrite Ep, <- app_assoc. split; [reflexivity|]. cbn [get_path]. now rewrite E.
Qed.
(** A caret position of an element is drawn in the row of the element. *)
Lemma caret_row :
  (forall o n ri x, mirror rs o n ri x -> forall path i pl, get_caret_position x path i = Ok pl -> exists q, fst pl = path ++ q /\ drawn_row x q = []) /\
  (forall o l xs, mirror_list rs o l xs -> forall path k i pl, go_caret path i k xs = Ok pl -> exists j c q, nth_error xs j = Some c /\ fst pl = path ++ (k + j) :: q /\ drawn_row c q = []) /\
  (forall s j l xs, mirror_rows rs s j l xs -> True).
Proof.
  assert (Z : forall (x : Element) path (pl : Place), fst pl = path -> exists q, fst pl = path ++ q /\ drawn_row x q = []) by (intros x path pl ->; exists []; now rewrite app_nil_r).
  apply mirror_mutind; auto.
  - intros o name ty l s0 e0 ri class Hcl path i pl H. apply Z. destruct class; try discriminate Hcl; cbn [get_caret_position] in H.
    + apply bind_ok in H as (?&_&H). apply bind_ok in H as (?&_&H). now inv H.
    + apply bind_ok in H as (?&_&H). destruct (_ <=? _); [now inv H|]. destruct (_ <=? _); [now inv H|]. apply bind_ok in H as (?&_&H). now inv H.
  - intros o name s0 ri class Hcl path i pl H. apply Z. destruct class; try discriminate Hcl; cbn [get_caret_position] in H; apply bind_ok in H as (?&_&H); repeat (destruct (_ <=? _); [now inv H|]); now inv H.
  - intros o o' name l s0 e0 ri tag ys Hl Hm IH _ path i pl H. cbn [get_caret_position] in H. apply bind_ok in H as (?&_&H). destruct (IH path 0 i pl H) as (j&c&q&Ej&Ep&Eq).
    exists (j :: q). split; [exact Ep|]. cbn [drawn_row get_children]. rewrite Ej. cbn [el_tree syn_children app]. exact Eq.
  - intros o name l w s0 ri r class ys Hcl Hl Hm _ _ path i pl H. apply Z. destruct class; try discriminate Hcl; cbn [get_caret_position] in H; apply bind_ok in H as (?&_&H);
      (destruct (_ =? _); [now inv H|]; destruct (_ =? _); [now inv H|discriminate H]).
  - intros o path k i pl H. discriminate H.
  - intros o n l x ys Hx IHx Hl IHl path k i pl H. cbn [go_caret] in H. destruct (offset_in_range (el_tree x) i).
    + destruct (IHx _ _ _ H) as (q&Ep&Eq). exists 0, x, q. rewrite Ep, <- app_assoc, Nat.add_0_r. auto.
    + destruct (IHl _ _ _ _ H) as (j&c&q&Ej&Ep&Eq). exists (S j), c, q. rewrite Nat.add_succ_r. auto.
Qed.
(** ** The container in a row is drawn in it. *)
Lemma gtiles_find Q row s e l k : gtiles Q row s e l -> s <= k < e -> exists i n s' e', nth_error l i = Some n /\ gtree Q row s' e' n /\ s' <= k < e'.
Proof.
  revert s. induction l as [|n l IH]; intros s T Hk; [inv T; lia|]. apply gtiles_cons_inv in T as (m&T1&T2). destruct (Nat.lt_ge_cases k m) as [H|H].
  - exists 0, n, s, m. split; [reflexivity|]. split; [exact T1|lia].
  - destruct (IH m T2) as (i&n'&s'&e'&E&R); [lia|]. exists (S i), n', s', e'. auto.
Qed.
Lemma mapi_some A B (f : nat -> A -> Res B) l : forall k ys j n, mapi_res f k l = Ok ys -> nth_error l j = Some n -> exists y, nth_error ys j = Some y.
Proof.
  induction l as [|a l IH]; intros k ys j n H E; [destruct j; discriminate E|]. cbn [mapi_res] in H. apply bind_ok in H as (x&Ex&H). apply bind_ok in H as (r&Er&H). inv H.
  destruct j as [|j]; [cbn; eauto|]. cbn in *. eauto.
Qed.
Lemma size_child x k c : nth_error (get_children x) k = Some c -> element_size c < element_size x.
Proof.
  destruct x as [class n r l]. cbn [get_children element_size]. revert k. intros k H. apply nth_error_In in H.
  enough (element_size c <= list_sum (map element_size l)) by (unfold list_sum in *; lia). induction l as [|a l0 IHl]; [easy|]. cbn. destruct H as [<-|H]; [lia|]. apply IHl in H. unfold list_sum in *. lia.
Qed.
Lemma render_length n ri o x : render rs n ri o = Ok x ->
  match syn_children n with Children l => List.length (get_children x) = List.length l | NewRows gr => List.length (get_children x) = List.length (gvalues gr) | Leaf _ _ => True end.
Proof.
  intros H. apply (render_mirror (Nat.lt_succ_diag_r _)) in H. inv H; cbn [syn_children get_children gvalues]; auto; [eapply mirror_children_length; eauto|].
  clear - H2. induction H2; cbn; congruence.
Qed.
Lemma down : forall m x pre p indices row k v gr, element_size x < m -> part p indices x -> row_get doc p = Some row -> fst (syn_range (el_tree x)) <= k < snd (syn_range (el_tree x)) -> nth_error row k = Some (Container v gr) ->
  exists y path indices' name l w, within (x, pre, indices) (y, path, indices') /\ part p indices' y /\ el_tree y = mkSyntax name (NewRows (mkGrid l w)) k (S k) /\
    (exists q, path = pre ++ q /\ drawn_row x q = [] /\ get_path x q = Some y) /\
    forall j cell, nth_error (gvalues gr) j = Some cell -> exists c, nth_error (get_children y) j = Some c.
Proof.
  induction m as [|m IH]; intros x pre p indices row k v gr Hm Hp Er Hk Ek; [lia|].
  destruct (part_basis Hp) as (row'&s&e&ri&o&B). pose proof B as (Er'&T&He&R&L). rewrite Er in Er'. inv Er'. rename row' into row. rewrite (gtree_range T) in Hk. cbn [fst snd] in Hk.
  assert (Hlen : forall i n, (exists l, syn_children (el_tree x) = Children l /\ nth_error l i = Some n) \/ (exists gr, syn_children (el_tree x) = NewRows gr /\ nth_error (gvalues gr) i = Some n) -> exists c, nth_error (get_children x) i = Some c).
  { intros i n Hi. destruct (nth_error (get_children x) i) as [c|] eqn:Ec; [eauto|]. exfalso. apply nth_error_None in Ec. pose proof (render_length R) as Z.
    destruct Hi as [(l&El&Hi)|(gr'&El&Hi)]; rewrite El in Z; assert (i < List.length (get_children x)) by (rewrite Z; apply nth_error_Some; congruence); lia. }
  remember (el_tree x) as n eqn:En. symmetry in En. destruct T as [row s e name l T|row s name ty symbols l tail Es Hl Hcc|row s name v' cells w nodes Ev F2].
  - destruct (gtiles_find T Hk) as (i&n&s'&e'&Ei&Tn&Hk'). assert (exists c, nth_error (get_children x) i = Some c) as (c&Ec) by (apply (Hlen i n); left; exists l; auto).
    destruct (part_child Hp Ec) as [[Hpc%part_same _]|(?&?&_&_&_&El)]; [|rewrite En in El; discriminate El].
    assert (Et : el_tree c = n).
    { apply render_cases in R as (_&[[E _]|[(name'&l'&s0&e0&o'&E&Em&_)|(?&?&?&?&E&_)]]); [rewrite E in Ec; destruct i; discriminate Ec| |rewrite ?En in E; discriminate E]. inv E.
      destruct (mapi_nth Em Ec) as (n'&En'&Rc). rewrite Ei in En'. inv En'. now apply render_cases in Rc. }
    destruct (IH c (pre ++ [i]) p (add_row_index indices (el_row_index c)) row k v gr) as (y&path&ind&nm&cs&w&W&Hy&Ey&(q&Eq&Dq&Gq)&Hj); auto.
    { pose proof (size_child Ec). lia. }
    { rewrite Et, (gtree_range Tn). exact Hk'. }
    exists y, path, ind, nm, cs, w. split; [econstructor; eauto|]. do 2 (split; [assumption|]). split; [|exact Hj]. exists (i :: q). rewrite Eq, <- app_assoc. split; [reflexivity|].
    cbn [drawn_row get_path]. rewrite Ec, En. auto.
  - exfalso. assert (E : nth_error (skipn s row) (k - s) = Some (Container v gr)) by (rewrite nth_error_skipn'; replace (s + (k - s)) with k by lia; exact Ek).
    rewrite Es, nth_error_app1 in E by (rewrite map_length; lia). rewrite nth_error_map in E. destruct (nth_error l (k - s)); discriminate E.
  - assert (s = k) as -> by lia. rewrite Ev in Ek. inv Ek. exists x, pre, indices, name, nodes, w. split; [constructor|]. split; [exact Hp|]. split; [exact En|].
    split; [exists []; rewrite app_nil_r; auto|]. intros j cell Ej. cbn [gvalues] in Ej. destruct (Forall2_nth_l F2 Ej) as (n&Enn&_). apply (Hlen j n). right. exists (mkGrid nodes w). auto.
Qed.

(** ** The whole drawing *)
Variable n : SyntaxNode.
Variable x : Element.
Hypothesis En : parse g doc = Ok n.
Hypothesis Hx : render_all rs n = Ok x.
Lemma root_top : top [] [] x.
Proof.
  destruct (parse_gtree Ht Hc Hwf) as (m&Em&T). rewrite En in Em. inv Em. pose proof (proj1 (render_cases Hx)) as Et. exists doc. unfold basis. rewrite Et. repeat split; auto. exact (parse_leaves Ht En).
Qed.
Lemma basis_range p row y s e ri o : basis p row y s e ri o -> syn_range (el_tree y) = (s, e).
Proof. intros (_&T&_). exact (gtree_range T). Qed.
Lemma top_within : forall p row, row_get doc p = Some row -> exists y path, within (x, [], []) (y, path, reported p) /\ top p (reported p) y /\ drawn_row x path = p.
Proof.
  induction p as [|[k j] p IH] using rev_ind; intros row Hr; [exists x, []; split; [constructor|]; split; [exact root_top|reflexivity]|].
  rewrite row_get_snoc in Hr. destruct (row_get doc p) as [row0|] eqn:Er; [|discriminate Hr]. destruct (nth_error row0 k) as [[v gr|]|] eqn:Ek; try discriminate Hr. 
  destruct (IH _ eq_refl) as (y&path&W&Ty&Dp). pose proof Ty as (row'&B&_). assert (row' = row0) as -> by (destruct B as (E&_); rewrite Er in E; now inv E).
  assert (Hk : k < List.length row0) by (apply nth_error_Some; congruence).
  destruct (@down _ y path p (reported p) row0 k v gr (Nat.lt_succ_diag_r _) (or_introl Ty) Er) as (z&path'&ind&name&l&w&W'&Hz&Ez&(q&->&Dq&Gq)&Hj); [rewrite (basis_range B); cbn; lia|exact Ek|].
  destruct (Hj j row Hr) as (c&Ec). destruct (part_child Hz Ec) as [[_ (l'&El)]|(s&gr'&Ei&Tc&Rg&_)]; [rewrite Ez in El; discriminate El|]. rewrite Ez in Rg. assert (s = k) as -> by (cbn in Rg; congruence).
  assert (Eq : add_row_index ind (el_row_index c) = reported (p ++ [(k, j)])) by (now destruct Tc as (?&_&_&E)). rewrite Eq in Tc.
  exists c, ((path ++ q) ++ [j]). split; [|split; [exact Tc|]].
  - eapply within_trans; [exact W|]. eapply within_trans; [exact W'|]. econstructor; [exact Ec|]. rewrite Eq. constructor.
  - destruct (within_path W) as (path0&E0&G0). cbn [fst snd app] in E0, G0. subst path0. rewrite <- app_assoc, (drawn_app _ G0), (drawn_app _ Gq), Dp, Dq. cbn [drawn_row app]. rewrite Ec, Ez. reflexivity.
Qed.
Lemma script_top p row y ri o : basis p row y 0 (List.length row) ri o -> parse g row = Ok (el_tree y) -> script_row xs xc row = true ->
  exists name a m l w, el_tree y = mkSyntax name (Children [a; mkSyntax operator_rule_name (NewRows (mkGrid l w)) m (S m)]) 0 (List.length row) /\ S m = List.length row.
Proof.
  intros B Ep Es.
  assert (Hn : forall l0, syn_children (el_tree y) = Children l0 -> is_new_rows (nth_error l0 1) = true).
  { pose proof B as (_&_&_&R&_). intros l0 El. unfold script_row in Es. rewrite Ep in Es. rewrite render_eq in R. unfold render_node in R.
    assert (Hr : exists tag, get_renderer rs (syn_name (el_tree y)) = Some (RenderScript tag)).
    { apply orb_prop in Es as [Es|Es]; apply path_eqb_eq in Es; rewrite Es; eexists; vm_compute; reflexivity. }
    destruct Hr as (tag&Hr). rewrite Hr, El in R. destruct (syn_range (el_tree y)). apply bind_ok in R as (?&Ha&_). now apply assert_inv in Ha. }
  destruct (script_whole Ep Es Hn) as (name&a&v&m&l&w&Et&_&Hm&_&->). eauto 8.
Qed.
Lemma stray_within p i row : row_get doc (p ++ [i]) = Some row -> script_row xs xc row = true ->
  exists y path, within (x, [], []) (y, path, reported (p ++ [i]) ++ [i]) /\ stray (p ++ [i]) (reported (p ++ [i]) ++ [i]) y.
Proof.
  intros Er Es. destruct (top_within Er) as (y&path&W&Ty&_). pose proof Ty as (row'&B&Ep&_). assert (row' = row) as -> by (destruct B as (E&_); rewrite Er in E; now inv E).
  destruct (script_top B Ep Es) as (name&a&m&l&w&Et&Hm).
  pose proof B as (_&T&_). rewrite Et in T. apply gtree_children_inv in T. apply gtiles_cons_inv in T as (m1&T1&T). apply gtiles_cons_inv in T as (m2&T2&_).
  assert (m1 = m) as -> by (pose proof (gtree_range T2) as Z; cbn in Z; now inv Z). apply gtree_rows_inv in T2 as (_&_&v&cells&Ev&_).
  destruct (@down _ y path (p ++ [i]) (reported (p ++ [i])) row m v (mkGrid cells w) (Nat.lt_succ_diag_r _) (or_introl Ty) Er) as (z&path'&ind&name'&l'&w'&W'&Hz&Ez&_&_); [rewrite (basis_range B); cbn; lia|exact Ev|].
  destruct Hz as [Hz|[(row'&s&e&o&Bz&_&_&Hl)|Hz]].
  - exfalso. destruct Hz as (row'&Bz&Epz&_). assert (row' = row) as -> by (destruct Bz as (E&_); rewrite Er in E; now inv E). rewrite Ep, Et, Ez in Epz. discriminate Epz.
  - exfalso. pose proof (basis_range Bz) as Z. rewrite Ez in Z. inv Z. assert (row' = row) as -> by (destruct Bz as (E&_); rewrite Er in E; now inv E). rewrite last_snoc in Hl. specialize (Hl ltac:(discriminate) Es). lia.
  - pose proof Hz as (row'&m'&o&i'&_&->&Ei&_). rewrite last_snoc in Ei. inv Ei. exists z, path'. split; [eapply within_trans; eauto|exact Hz].
Qed.

Lemma part_position p indices y path offset place : part p indices y -> has_caret y path offset place -> exists row, row_get doc p = Some row /\ offset <= List.length row /\
  (indices = reported p \/ exists q i, p = q ++ [i] /\ script_row xs xc row = true /\ indices = reported p ++ [i] /\ List.length row <= S offset).
Proof.
  intros Hp [Ho _]. destruct Hp as [(row&B&_&->)|[(row&s&e&o&B&_&->&_)|(row&m&o&i&B&->&Ei&Es&Hm&_)]]; rewrite (basis_range B) in Ho; cbn [fst snd] in Ho; pose proof B as (Er&_&He&_); exists row; (split; [exact Er|]); (split; [lia|]); auto.
  right. assert (exists q, p = q ++ [i]) as (q&->).
  { destruct p as [|a p] using rev_ind; [discriminate Ei|]. rewrite last_snoc in Ei. inv Ei. eauto. }
  exists q, i. repeat split; auto. lia.
Qed.
(** What a candidate of the drawing reports *)
Theorem reports y path indices offset place : within (x, [], []) (y, path, indices) -> has_caret y path offset place ->
  let p := drawn_row x (fst place) in
  exists row, row_get doc p = Some row /\ offset <= List.length row /\
  (indices = reported p \/ exists q i, p = q ++ [i] /\ script_row xs xc row = true /\ indices = reported p ++ [i] /\ List.length row <= S offset).
Proof.
  intros W H. cbv zeta. destruct (within_part W (p := []) (or_introl root_top)) as (path1&Ep1&Hp). destruct (within_path W) as (path2&Ep2&Hg). cbn [fst snd app] in *. subst path1 path2.
  pose proof (part_position Hp H) as Hr. destruct (part_basis Hp) as (row&s&e&ri&o&(_&_&_&R&_)). apply (render_mirror (Nat.lt_succ_diag_r _)) in R.
  destruct (proj1 caret_row _ _ _ _ R _ _ _ (proj2 H)) as (q&->&Eq). rewrite (drawn_app _ Hg), Eq, app_nil_r. exact Hr.
Qed.
Lemma basis_caret p row y s e ri o path j : basis p row y s e ri o -> s <= j <= e -> exists place, has_caret y path j place.
Proof.
  intros B Hj. pose proof B as (_&T&_&R&L). apply (render_mirror (Nat.lt_succ_diag_r _)) in R. destruct (proj1 (caret_total rs (P g)) _ _ _ _ R _ _ _ T L path j Hj) as (place&E). exists place.
  split; [rewrite (basis_range B); exact Hj|exact E].
Qed.
Theorem positions_reported p' offset : (exists place, offers (x, [], []) p' offset place) <->
  exists p row, row_get doc p = Some row /\ offset <= List.length row /\
    (p' = reported p \/ exists q i, p = q ++ [i] /\ script_row xs xc row = true /\ p' = reported p ++ [i] /\ List.length row <= S offset).
Proof.
  split.
  - intros (pl&y&path&W&_&H). destruct (reports W H) as (row&Hr). eauto.
  - intros (p&row&Er&Hj&[->|(q&i&->&Es&->&Hl)]).
    + assert (exists y path, within (x, [], []) (y, path, reported p) /\ top p (reported p) y /\ ((y, path, reported p) = (x, [], []) \/ el_row_index y <> None)) as (y&path&W&Ty&Hy).
      { destruct p as [|a p _] using rev_ind; [exists x, []; repeat split; [constructor|exact root_top|now left]|].
        destruct (top_within Er) as (y&path&W&Ty&_). exists y, path. split; [exact W|]. split; [exact Ty|]. right. rewrite (top_index Ty), last_snoc. discriminate. }
      pose proof Ty as (row'&B&_). assert (row' = row) as -> by (destruct B as (E&_); rewrite Er in E; now inv E).
      destruct (basis_caret path B (j := offset)) as (place&Hp); [lia|]. exists place, y, path. auto.
    + destruct (stray_within Er Es) as (y&path&W&Ty). pose proof Ty as (row'&m&o&i'&B&_&_&_&Hm&Ei&_). assert (row' = row) as -> by (destruct B as (E&_); rewrite Er in E; now inv E).
      destruct (basis_caret path B (j := offset)) as (place&Hp); [lia|]. exists place, y, path. split; [exact W|]. split; [right; congruence|exact Hp].
Qed.

(** Every position of the document is drawn in its row. *)
Theorem position_drawn p row offset : row_get doc p = Some row -> offset <= List.length row -> exists place, drawn_row x (fst place) = p /\ offers (x, [], []) (reported p) offset place.
Proof.
  intros Er Hj.
  assert (exists y path, within (x, [], []) (y, path, reported p) /\ top p (reported p) y /\ drawn_row x path = p /\ ((y, path, reported p) = (x, [], []) \/ el_row_index y <> None)) as (y&path&W&Ty&Dp&Hy).
  { destruct p as [|a p _] using rev_ind; [exists x, []; repeat split; [constructor|exact root_top|now left]|].
    destruct (top_within Er) as (y&path&W&Ty&Dp). exists y, path. split; [exact W|]. split; [exact Ty|]. split; [exact Dp|]. right. rewrite (top_index Ty), last_snoc. discriminate. }
  pose proof Ty as (row'&B&_). assert (row' = row) as -> by (destruct B as (E&_); rewrite Er in E; now inv E).
  destruct (basis_caret path B (j := offset)) as (place&Hp); [lia|]. exists place. split; [|exists y, path; auto].
  destruct (within_path W) as (path0&E0&G0). cbn [fst snd app] in E0, G0. subst path0. destruct B as (_&_&_&R&_). apply (render_mirror (Nat.lt_succ_diag_r _)) in R.
  destruct (proj1 caret_row _ _ _ _ R _ _ _ (proj2 Hp)) as (q&->&Eq). rewrite (drawn_app _ G0), Eq, app_nil_r. exact Dp.
Qed.

Lemma get_path_app path : forall x0 path', get_path x0 (path ++ path') = match get_path x0 path with Some y => get_path y path' | None => None end.
Proof. induction path as [|k path IH]; intros x0 path'; cbn [get_path app]; [reflexivity|]. destruct (nth_error (get_children x0) k); auto. Qed.
(** What is at a path of the drawing *)
Lemma path_part : forall path y, get_path x path = Some y -> exists indices,
  (top (drawn_row x path) indices y /\ (path = [] \/ row_element x path)) \/
  (exists q k z l, path = q ++ [k] /\ get_path x q = Some z /\ syn_children (el_tree z) = Children l /\ drawn_row x q = drawn_row x path /\
    (inner (drawn_row x path) indices y \/ (stray (drawn_row x path) indices y /\ k = 1 /\ exists indices', top (drawn_row x path) indices' z))).
Proof.
  induction path as [|k path IH] using rev_ind; intros y H; [injection H as <-; exists []; left; split; [exact root_top|now left]|].
  pose proof H as H'. rewrite get_path_app in H. destruct (get_path x path) as [z|] eqn:Ez; [|discriminate H]. cbn [get_path] in H. destruct (nth_error (get_children z) k) as [c|] eqn:Ec; [|discriminate H]. inv H.
  destruct (IH _ eq_refl) as (ind&Hz). assert (Hp : part (drawn_row x path) ind z) by (destruct Hz as [[Hz _]|(?&?&?&?&_&_&_&_&[Hz|(Hz&_)])]; [now left|right; now left|right; now right]).
  assert (Ed : drawn_row x (path ++ [k]) = drawn_row x path ++ match syn_children (el_tree z) with NewRows _ => [(fst (syn_range (el_tree z)), k)] | _ => [] end).
  { rewrite (drawn_app _ Ez). cbn [drawn_row]. rewrite Ec. now rewrite app_nil_r. }
  exists (add_row_index ind (el_row_index y)). destruct (part_child Hp Ec) as [[Hch (l&El)]|(s&gr&Ei&Hch&Er&El)]; rewrite El in Ed; rewrite Ed.
  - right. rewrite app_nil_r in *. exists path, k, z, l. do 4 (split; [auto; fail|]). destruct Hch as [Hch|(Hch&->&Hx')]; eauto 6.
  - left. rewrite Er. cbn [fst]. split; [exact Hch|]. right. exists path, k, z, gr. do 3 (split; [auto; fail|]). congruence.
Qed.
Lemma row_elements path : (exists q y, path = q /\ get_path x q = Some y /\ el_row_index y <> None) <->
  row_element x path \/ exists q row, path = q ++ [1] /\ row_element x q /\ row_get doc (drawn_row x q) = Some row /\ script_row xs xc row = true.
Proof.
  split.
  - intros (q&y&<-&Ey&Hy). destruct (path_part Ey) as (ind&[[Hz [->|Hr]]|(q&k&z&l&->&Ez&El&Ed&[Hz|(Hz&->&(ind'&Hz'))])]).
    + rewrite (top_index Hz) in Hy. now elim Hy.
    + now left.
    + rewrite (inner_index Hz) in Hy. now elim Hy.
    + right. pose proof Hz as (row&m&o&i&(Er&_)&_&Ei&Es&_). exists q, row. rewrite Ed. split; [reflexivity|]. split; [|auto].
      destruct (path_part Ez) as (ind2&[[_ [->|Hr]]|(q2&k2&z2&l2&->&Ez2&El2&Ed2&Hz2)]).
      * rewrite <- Ed in Ei. discriminate Ei.
      * exact Hr.
      * exfalso. pose proof (top_index Hz') as Hti. rewrite Ei in Hti. destruct Hz2 as [Hz2|((row2&m2&o2&i2&_&_&_&_&_&_&(nm&l3&w3&E3))&_)]; [rewrite (inner_index Hz2) in Hti; discriminate Hti|].
        rewrite E3 in El. discriminate El.
  - assert (Rt : forall q, row_element x q -> exists y ind i, get_path x q = Some y /\ top (drawn_row x q) ind y /\ last_index (drawn_row x q) = Some i).
    { intros q (q'&k&z&gr&->&Ez&El&Hs). destruct (get_path x (q' ++ [k])) as [y|] eqn:Ey; [|now elim Hs]. destruct (path_part Ey) as (ind&[[Hz _]|(q2&k2&z2&l&E2&Ez2&El2&_)]).
      - exists y, ind, (fst (syn_range (el_tree z)), k). split; [reflexivity|]. split; [exact Hz|]. rewrite (drawn_app _ Ez). cbn [drawn_row]. rewrite get_path_app, Ez in Ey. cbn [get_path] in Ey.
        destruct (nth_error (get_children z) k); [|discriminate Ey]. rewrite El, app_nil_r. apply last_snoc.
      - exfalso. apply app_inj_tail in E2 as [<- <-]. congruence. }
    intros [Hr|(q&row&->&Hr&Er&Es)].
    + destruct (Rt _ Hr) as (y&ind&i&Ey&Hy&Ei). exists path, y. split; [reflexivity|]. split; [exact Ey|]. rewrite (top_index Hy), Ei. discriminate.
    + destruct (Rt _ Hr) as (z&ind&i&Ez&Hz&Ei). pose proof Hz as (row'&B&Ep&_). assert (row' = row) as -> by (destruct B as (E&_); rewrite Er in E; now inv E).
      destruct (script_top B Ep Es) as (name&a&m&l&w&Et&Hm). pose proof B as (_&_&_&R&_). pose proof (render_length R) as Hl. rewrite Et in Hl. cbn [syn_children List.length] in Hl.
      destruct (nth_error (get_children z) 1) as [c|] eqn:Ec; [|apply nth_error_None in Ec; lia]. exists (q ++ [1]), c. split; [reflexivity|]. split; [rewrite get_path_app, Ez; cbn [get_path]; now rewrite Ec|].
      destruct (part_child (or_introl Hz) Ec) as [[[Hch|((?&?&?&?&_&_&_&_&_&E&_)&_)] _]|(?&?&_&_&_&E)]; [|congruence|rewrite Et in E; discriminate E].
      exfalso. destruct Hch as (row'&s&e&o&Bc&_&_&Hl'). assert (row' = row) as -> by (destruct Bc as (E&_); rewrite Er in E; now inv E). rewrite Ei in Hl'. specialize (Hl' ltac:(discriminate) Es).
      apply render_cases in R as (_&[[E _]|[(name'&l'&s0&e0&o'&E&Em&_)|(?&?&?&?&E&_)]]); [rewrite E in Ec; discriminate Ec| |rewrite Et in E; discriminate E]. rewrite Et in E. inv E.
      destruct (mapi_nth Em Ec) as (nc&Enc&Rc). cbn in Enc. inv Enc. apply render_cases in Rc as (Etc&_). pose proof (basis_range Bc) as Hrg. rewrite Etc in Hrg. cbn in Hrg. inv Hrg. lia.
Qed.


(** The indices of a row are reported as they are if no row on the way is a script of which the script is entered. *)
Lemma reported_from_length p : forall row i, List.length p <= List.length (reported_from xs xc row i p).
Proof.
  induction p as [|[k j] p IH]; intros row i; cbn [reported_from]; [lia|]. rewrite app_length. cbn [List.length]. destruct (nth_error row k) as [[v c|]|]; try lia. destruct (nth_error (gvalues c) j); [|lia].
  specialize (IH l (Some (k, j))). lia.
Qed.
Lemma reported_from_eq p : forall row i, List.length (reported_from xs xc row i p) = List.length p -> reported_from xs xc row i p = p.
Proof.
  induction p as [|[k j] p IH]; intros row i; cbn [reported_from]; [reflexivity|]. rewrite app_length. cbn [List.length]. intros H.
  assert (Hm : forall r, (r = p \/ exists cell, r = reported_from xs xc cell (Some (k, j)) p) -> List.length (twice xs xc row i k) + S (List.length r) = S (List.length p) -> twice xs xc row i k ++ (k, j) :: r = (k, j) :: p).
  { intros r Hr Hl. assert (List.length p <= List.length r) by (destruct Hr as [->|(cell&->)]; [lia|apply reported_from_length]). destruct (twice xs xc row i k) eqn:Et; [|cbn in Hl; lia]. cbn [app List.length] in *. f_equal.
    destruct Hr as [->|(cell&->)]; [reflexivity|]. apply IH. lia. }
  apply Hm; [|exact H]. destruct (nth_error row k) as [[v c|]|]; auto. destruct (nth_error (gvalues c) j); eauto.
Qed.
End Stray.
