(** Leaves of parsed trees, clicking. *)
From Coq Require Import String.
From Verif Require Import Base Str Grid Node Focus Autocomplete Spec NameMap Syntax Pratt Grammar SyntaxFind Render Layout SpecSyntax SpecPratt SpecRender BaseFacts TreeFacts ParseFacts ParseTotal GrammarFacts FindFacts ShapeFacts RenderFacts LayoutFacts.
Open Scope list_scope.
Open Scope nat_scope.
Set Implicit Arguments.
Unset Strict Implicit.

(** ** Leaves *)
Section Leaves.
Variable g : Grammar.
Variable OK : InputRow -> Prop.
Variable Q : nat -> nat -> list str -> Prop.
Hypothesis Qspace : forall s e, s < e -> Q s e (repeat space (e - s)).
Hypothesis Qsymbol : forall s x, Q s (S s) [x].
Definition in_grammar (t : TokenParser) : Prop := exists r, In r (g_rules g) /\ rule_token r = Some t.
Hypothesis Qtoken : forall row s e t symbols l, OK row -> in_grammar t -> leaf_of g t symbols l -> s < e -> reads row s l -> List.length l = e - s -> Q s e symbols.
Lemma spaces_leaves row s e o n : spaces row s e o -> o = Some n -> leaves Q n.
Proof. intros H ->. inv H. now apply Qspace. Qed.
Lemma wrap_leaves row row' before n after s a b e : spaces row s a before -> spaces row' b e after -> leaves Q n -> leaves Q (wrap before n after s e).
Proof.
  intros Sb Sa H. pose proof (fun m => @spaces_leaves _ _ _ _ m Sb) as Hb. pose proof (fun m => @spaces_leaves _ _ _ _ m Sa) as Ha.
  unfold wrap. destruct before, after; cbn; repeat split; auto.
Qed.
Definition content_leaves (s e : nat) (c : SyntaxNodeChildren) : Prop := leaves Q (mkSyntax [] c s e).
Lemma op_grammar sel op : (forall r o, sel r = Some o -> rule_token r = Some (op_token o)) -> In op (g_ops sel g) -> in_grammar (op_token op).
Proof. intros Hs H. apply ops_in in H as (r&Hr&E). exists r. auto. Qed.
Lemma tree_leaves :
  (forall row s e n, tree g row s e n -> everywhere OK row -> leaves Q n) /\
  (forall row s e t c, token g row s e t c -> everywhere OK row -> in_grammar t \/ (exists v, t = TContainer v) -> content_leaves s e c) /\
  (forall row s e name t n, wrapped g row s e name t n -> everywhere OK row -> in_grammar t \/ (exists v, t = TContainer v) -> leaves Q n) /\
  (forall row s e t n, scripted g row s e t n -> everywhere OK row -> in_grammar t \/ (exists v, t = TContainer v) -> leaves Q n) /\
  (forall cells nodes, cells_tree g cells nodes -> (forall cell, In cell cells -> everywhere OK cell) -> all_leaves Q nodes).
Proof.
  apply tree_mutind.
  - intros. exact I.
  - intros row s m e a b _ IHa _ IHb H. cbn. auto.
  - intros row s x _ _ _. cbn. apply Qsymbol.
  - intros row s m e op v a Hop _ IHv _ IHa H. assert (in_grammar (op_token op)) by (eapply op_grammar; [|exact Hop]; intros [] ? E; inv E; reflexivity). cbn. auto.
  - intros row s m k e op a v b Hop _ IHa _ IHv _ IHb H. assert (in_grammar (op_token op)) by (eapply op_grammar; [|exact Hop]; intros [] ? E; inv E; reflexivity). cbn. auto 6.
  - intros row s m e op a v Hop _ IHa _ IHv H. assert (in_grammar (op_token op)) by (eapply op_grammar; [|exact Hop]; intros [] ? E; inv E; reflexivity). cbn. auto.
  - intros row s e name t n Hr _ IH H. apply IH; [exact H|]. left. apply atoms_in in Hr. exists (RAtom name t). auto.
  - intros row s e t ty symbols l Hl Hse _ _ Hr Len _ H [Ht|[v ->]]; [|easy]. unfold content_leaves. cbn. eapply Qtoken; eauto. now apply everywhere_here.
  - intros row s v cells w nodes En _ _ _ IH H _. unfold content_leaves. cbn. apply IH. intros cell Hc. eapply everywhere_cell; eauto.
  - intros row s m a b c _ _ IH _ H _. unfold content_leaves. cbn. auto.
  - intros row s a b _ _ H _. unfold content_leaves. cbn. auto.
  - intros row s a b e name t c before after Sb _ IH Sa _ H Ht. eapply wrap_leaves; eauto. specialize (IH H Ht). unfold content_leaves in IH. destruct c as [[]| |]; exact IH.
  - auto.
  - intros row s m e t n v name op _ _ IHn _ IHo H Ht. cbn. repeat split; eauto.
  - intros _. exact I.
  - intros cell cells n nodes _ IHn _ IHc H. cbn. split; [apply IHn, H; now left|apply IHc; intros c Hc; apply H; now right].
Qed.
End Leaves.
Lemma parse_leaves g doc n : no_empty_tokens g -> parse g doc = Ok n -> leaves (fun _ _ l => l <> []) n.
Proof.
  intros Ht H. apply parse_shape in H; [|exact Ht]. refine (proj1 (@tree_leaves g (fun _ => True) _ _ _ _) _ _ _ _ H _); [..|intros p row _; exact I].
  - intros s e Hse. destruct (e - s) eqn:E; [lia|discriminate].
  - discriminate.
  - intros row s e t symbols l _ _ Hl Hse _ Len E. rewrite E in Hl. destruct t; cbn in Hl; try easy; destruct Hl as [<- _]; cbn in Len; lia.
Qed.
(** A token of several symbols does not occur in the row. *)
Definition no_long_tokens (g : Grammar) (row : InputRow) : Prop := forall t l ty k, in_grammar g t -> t = TSymbols l ty -> 1 < List.length l -> ~ reads row k l.
Lemma parse_leaves_short g doc n : no_empty_tokens g -> parse g doc = Ok n -> everywhere (no_long_tokens g) doc -> leaves (fun s e l => List.length l = e - s) n.
Proof.
  intros Ht H Hl. apply parse_shape in H; [|exact Ht]. refine (proj1 (@tree_leaves g (no_long_tokens g) _ _ _ _) _ _ _ _ H Hl).
  - intros s e Hse. apply repeat_length.
  - intros s x. cbn [List.length]; lia.
  - intros row s e t symbols l Ho Hg Hs Hse Hr Len. destruct t; cbn in Hs; try easy; try (destruct Hs as [-> _]; exact Len). destruct Hs as [-> ->]. cbn.
    destruct (Nat.eq_dec (List.length l) 1); [lia|]. exfalso. eapply Ho; eauto. lia.
Qed.

(** ** Clicking *)
Section Click.
Variable g : Grammar.
Hypothesis Ht : no_empty_tokens g.
Hypothesis Hc : all_containers g.
Variable rs : Renderers.
Variable doc : InputRow.
Hypothesis Hwf : wf_row doc.
(** No row of a container is a script. *)
Hypothesis Hcalm : forall p row n, p <> [] -> row_get doc p = Some row -> parse g row = Ok n -> ~ script_named rs n.
Definition calm (o : option (option RowIndex)) : Prop := o = None \/ o = Some None.
Definition located (indices : RowIndices) (x : Element) : Prop :=
  exists row s e o ri, row_get doc indices = Some row /\ gtree (P g) row s e (el_tree x) /\ e <= List.length row /\ mirror rs o (el_tree x) ri x /\ calm o /\
    (ri = None \/ ~ script_named rs (el_tree x)) /\ leaves (fun _ _ l => l <> []) (el_tree x).
Lemma mirror_list_in o l xs c : mirror_list rs o l xs -> In c xs -> exists n, In n l /\ mirror rs o n None c.
Proof. induction 1 as [|o n l x xs Hx Hl IH]; [easy|]. intros [<-|H]; [exists n; split; [now left|exact Hx]|]. destruct (IH H) as (m&Hm&M). exists m. split; [now right|exact M]. Qed.
Lemma mirror_rows_in s : forall j l xs c, mirror_rows rs s j l xs -> In c xs -> exists k n, nth_error l k = Some n /\ mirror rs None n (Some (s, j + k)) c.
Proof.
  intros j l xs c H. induction H as [s j|s j n l x xs Hx Hl IH]; [easy|]. intros [<-|H].
  - exists 0, n. rewrite Nat.add_0_r. auto.
  - destruct (IH H) as (k&m&E&M). exists (S k), m. rewrite Nat.add_succ_r. auto.
Qed.
Lemma gtiles_in Q row s e l n : gtiles Q row s e l -> In n l -> exists s' e', gtree Q row s' e' n /\ e' <= e.
Proof.
  induction l as [|a l IH] in s |- *; [easy|]. intros T [<-|H]; apply gtiles_cons_inv in T as (m&T1&T2).
  - exists s, m. split; [exact T1|]. now apply gtiles_le in T2.
  - eauto.
Qed.
Lemma Forall2_nth_r A B (R : A -> B -> Prop) l l' j y : Forall2 R l l' -> nth_error l' j = Some y -> exists x, nth_error l j = Some x /\ R x y.
Proof. intros H. revert j. induction H; intros [|j] E; try discriminate; cbn in *; [inv E; eauto|auto]. Qed.
Lemma mirror_cases o n ri x : mirror rs o n ri x -> get_children x = [] \/
  (exists name l s e o', n = mkSyntax name (Children l) s e /\ mirror_list rs o' l (get_children x) /\ (o' = None \/ o' = o \/ o' = Some ri /\ script_named rs n)) \/
  (exists name l w s, n = mkSyntax name (NewRows (mkGrid l w)) s (S s) /\ mirror_rows rs s 0 l (get_children x)).
Proof. intros H. inv H; [now left|now left|right; left|right; right]; cbn [get_children]; eauto 10. Qed.
Lemma gtree_rows_inv Q row s e name l w s' : gtree Q row s e (mkSyntax name (NewRows (mkGrid l w)) s' (S s')) -> s' = s /\ e = S s /\
  exists v cells, nth_error row s = Some (Container v (mkGrid cells w)) /\ Forall2 Q cells l.
Proof. intros H. inv H. eauto 6. Qed.
Lemma located_child indices x c : located indices x -> In c (get_children x) -> located (add_row_index indices (el_row_index c)) c.
Proof.
  intros (row&s&e&o&ri&Er&T&He&M&Ho&Hr&L) Hin. destruct (mirror_cases M) as [E0|[(name&l&s0&e0&o'&E0&ML&Ho')|(name&l&w&s0&E0&MR)]].
  - rewrite E0 in Hin. easy.
  - destruct (mirror_list_in ML Hin) as (m&Hm&Mc). rewrite E0 in T, L. apply gtree_children_inv in T as T'. destruct (gtiles_in T' Hm) as (s'&e'&Tm&He').
    assert (Co : calm o'). { destruct Ho' as [->|[->|[-> Hn]]]; [now left|exact Ho|]. destruct Hr as [->|Hr]; [now right|contradiction]. }
    assert (Ei : el_row_index c = None). { destruct (mirror_row_index Mc) as [E|E]; [exact E|]. destruct Co as [->| ->]; congruence. }
    rewrite Ei. cbn [add_row_index]. exists row, s', e', o', None. rewrite (mirror_tree Mc). repeat split; auto; [lia|]. now apply (all_leaves_in L).
  - destruct (mirror_rows_in MR Hin) as (k&m&Em&Mc). rewrite E0 in T, L. apply gtree_rows_inv in T as (->&->&v&cells&En&F2). destruct (Forall2_nth_r F2 Em) as (cell&Ecell&HP).
    assert (Ei : el_row_index c = Some (s, k)). { destruct (mirror_row_index Mc) as [E|E]; [exact E|discriminate]. }
    assert (Hwr : wf_row row) by (eapply row_get_wf; eauto).
    assert (Hwc : wf_row cell). { pose proof (wf_row_nth Hwr En) as Hn. apply wf_container_inv in Hn as (_&_&_&Hx). apply Hx. eapply nth_error_In; eauto. }
    assert (Ec : row_get doc (indices ++ [(s, k)]) = Some cell). { rewrite row_get_snoc, Er, En. cbn. exact Ecell. }
    pose proof (P_parse Ht Hc Hwc HP) as Ep. destruct (parse_gtree Ht Hc Hwc) as (m'&Em'&Tm). rewrite Ep in Em'. inv Em'.
    rewrite Ei. cbn [add_row_index]. exists cell, 0, (List.length cell), None, (Some (s, k)). rewrite (mirror_tree Mc). repeat split; auto.
    + now left.
    + right. eapply Hcalm; eauto. intros E. now apply app_eq_nil in E.
    + apply (all_leaves_in L). eapply nth_error_In; eauto.
Qed.
Lemma located_root n x : parse g doc = Ok n -> render_all rs n = Ok x -> located [] x.
Proof.
  intros En Hx. apply render_all_mirror in Hx. destruct (parse_gtree Ht Hc Hwf) as (n'&En'&T). rewrite En in En'. inv En'.
  exists doc, 0, (List.length doc), None, None. rewrite (mirror_tree Hx). repeat split; auto; [now left|]. eapply parse_leaves; eauto.
Qed.

Variable to_bounds : list nat -> nat.
Variable to_place : Place -> nat.
Definition go_layout (path : list nat) (indices : RowIndices) : nat -> list Element -> option Candidate :=
  fix go k l := match l with
    | [] => None
    | c :: l => match layout_element_containing to_bounds c (path ++ [k]) (add_row_index indices (el_row_index c)) with Some v => Some v | None => go (S k) l end
    end.
Lemma layout_located : forall k x path indices x' path' indices', element_size x < k -> layout_element_containing to_bounds x path indices = Some (x', path', indices') ->
  (located indices x -> located indices' x') /\ element_size x' <= element_size x.
Proof.
  induction k as [|k IH]; intros x path indices x' path' indices' Hk H; [lia|]. destruct x as [class n r xs]. cbn [layout_element_containing] in H.
  destruct (0 <? to_bounds path); [discriminate|]. cbn [get_children] in H. fold (go_layout path indices) in H.
  assert (G : forall l i v, (forall c, In c l -> In c xs) -> go_layout path indices i l = Some v ->
    exists c, In c xs /\ exists i, layout_element_containing to_bounds c (path ++ [i]) (add_row_index indices (el_row_index c)) = Some v).
  { induction l as [|c l IHl]; intros i v Hl Hv; cbn [go_layout] in Hv; [discriminate|]. destruct (layout_element_containing _ c _ _) as [v'|] eqn:E.
    - inv Hv. exists c. split; [apply Hl; now left|eauto].
    - eapply IHl; eauto. intros c' Hc'. apply Hl. now right. }
  destruct (go_layout path indices 0 xs) as [[[y py] iy]|] eqn:E.
  - inv H. apply G in E as (c&Hin&i&E); [|auto]. assert (S : element_size c <= list_sum (map element_size xs)).
    { clear - Hin. induction xs as [|a l IHl]; [easy|]. cbn. destruct Hin as [<-|Hin]; [lia|]. apply IHl in Hin. unfold list_sum in *. lia. }
    cbn [element_size get_children] in *. apply IH in E as [E1 E2]; [|lia]. split; [|lia]. intros L. apply E1. eapply located_child; [exact L|]. exact Hin.
  - inv H. auto.
Qed.

(** The closest position in a row is in the range of the element. *)
Lemma closest_in x path n : forall i c, (forall j, i <= j < i + n -> exists p, get_caret_position x path j = Ok p) ->
  exists o, closest_position_in_row to_place x path i n c = Ok o /\ (forall j d, o = Some (j, d) -> c = Some (j, d) \/ i <= j < i + n) /\ (o = None -> c = None /\ n = 0).
Proof.
  induction n as [|n IH]; intros i c H; cbn [closest_position_in_row].
  - exists c. repeat split; auto.
  - destruct (H i) as (p&->); [lia|]. cbn [bind].
    edestruct IH as (o&E&H1&H2); [|exists o; split; [exact E|]].
    + intros j Hj. apply H. lia.
    + split.
      * intros j d Ed. apply H1 in Ed as [Ed|]; [|lia]. destruct c as [[j' d']|].
        -- destruct (_ <? _); [right; inv Ed; lia|now left].
        -- right. inv Ed. lia.
      * intros Eo. apply H2 in Eo as [Eo _]. destruct c as [[j' d']|]; [destruct (_ <? _); discriminate|discriminate].
Qed.
Definition valid (indices : RowIndices) (offset : nat) : Prop := exists row, row_get doc indices = Some row /\ offset <= List.length row.
Lemma located_closest indices x path : located indices x ->
  exists offset d, get_closest_position_in_row to_place x path = Ok (Some (offset, d)) /\ valid indices offset.
Proof.
  intros (row&s&e&o&ri&Er&T&He&M&_&_&L). unfold get_closest_position_in_row. rewrite (gtree_range T). pose proof (gtree_le T).
  destruct (@closest_in x path (S e - s) s None) as (res&E&H1&H2).
  - intros j Hj. apply (proj1 (caret_total rs (P g)) _ _ _ _ M _ _ _ T L). lia.
  - rewrite E. destruct res as [[offset d]|].
    + exists offset, d. split; [reflexivity|]. destruct (H1 _ _ eq_refl); [discriminate|]. exists row. split; [exact Er|lia].
    + destruct (H2 eq_refl). lia.
Qed.
Definition go_rows (path : list nat) : nat -> list Element -> list (Element * list nat) :=
  fix go k l := match l with
    | [] => []
    | c :: l => match el_row_index c with Some _ => [(c, path ++ [k])] | None => get_new_rows_children c (path ++ [k]) end ++ go (S k) l
    end.
Lemma new_rows_located : forall k x path indices, element_size x < k -> located indices x ->
  (forall c p, In (c, p) (get_new_rows_children x path) -> located (add_row_index indices (el_row_index c)) c) /\
  list_sum (map (fun cp => element_size (fst cp)) (get_new_rows_children x path)) < element_size x.
Proof.
  induction k as [|k IH]; intros x path indices Hk L; [lia|]. pose proof (fun c => @located_child indices x c L) as Hl. destruct x as [class n r xs].
  cbn [get_new_rows_children get_children element_size] in *. fold (go_rows path).
  assert (G : forall l i, (forall c, In c l -> In c xs) -> list_sum (map element_size l) < k ->
    (forall c p, In (c, p) (go_rows path i l) -> located (add_row_index indices (el_row_index c)) c) /\
    list_sum (map (fun cp => element_size (fst cp)) (go_rows path i l)) <= list_sum (map element_size l)).
  { induction l as [|c l IHl]; intros i Hin Hs; cbn [go_rows map list_sum fold_right]; [split; [easy|lia]|]. cbn [map list_sum fold_right] in Hs.
    destruct (IHl (S i)) as [G1 G2]; [intros c' Hc'; apply Hin; now right|unfold list_sum; lia|]. pose proof (Hl c (Hin c (or_introl eq_refl))) as Lc.
    destruct (el_row_index c) eqn:Ei.
    - split.
      + intros c' p [E|E]; [inv E; rewrite Ei; exact Lc|eauto].
      + cbn. unfold list_sum in *. lia.
    - cbn [add_row_index] in Lc. destruct (IH c (path ++ [i]) indices) as [G3 G4]; [lia|exact Lc|]. split.
      + intros c' p E. apply in_app_iff in E as [E|E]; eauto.
      + rewrite map_app, list_sum_app. unfold list_sum in *. lia. }
  destruct (G xs 0) as [G1 G2]; [auto|lia|]. split; [exact G1|]. unfold list_sum in *. lia.
Qed.
Definition stack_size (l : list Candidate) : nat := list_sum (map (fun c => element_size (fst (fst c))) l).
Lemma list_sum_rev l : list_sum (rev l) = list_sum l.
Proof. induction l as [|a l IH]; [reflexivity|]. cbn [rev]. rewrite list_sum_app, IH. cbn [list_sum fold_right]. unfold list_sum. cbn [fold_right]. lia. Qed.
Lemma loop_valid : forall fuel roots closest, stack_size roots <= fuel -> (forall x path indices, In (x, path, indices) roots -> located indices x) ->
  (forall indices offset d, closest = Some (indices, offset, d) -> valid indices offset) ->
  exists o, layout_position_loop to_bounds to_place fuel roots closest = Ok o /\ (forall indices offset d, o = Some (indices, offset, d) -> valid indices offset) /\
    (closest <> None \/ roots <> [] -> o <> None).
Proof.
  induction fuel as [|fuel IH]; intros roots closest Hf Hr Hcl.
  - destruct roots as [|[[x path] indices] roots].
    + cbn. exists closest. repeat split; auto. intros [H|H]; congruence.
    + exfalso. unfold stack_size in Hf. cbn in Hf. destruct x. cbn in Hf. lia.
  - destruct roots as [|[[x path] indices] roots].
    + cbn. exists closest. repeat split; auto. intros [H|H]; congruence.
    + cbn [layout_position_loop]. assert (Lx : located indices x) by (eapply Hr; now left).
      assert (Sz : stack_size roots + element_size x <= S fuel) by (unfold stack_size in *; cbn in Hf; unfold list_sum in *; lia). assert (0 < element_size x) by (destruct x; cbn; lia).
      destruct (match closest with Some (_, d) => d <? to_bounds path | None => false end) eqn:Eskip.
      * destruct (IH roots closest) as (o&E&H1&H2); auto; [lia|intros; eapply Hr; right; eauto|]. exists o. repeat split; auto. intros _. apply H2. left. intros ->. discriminate.
      * destruct (@located_closest indices x path Lx) as (offset&d&E&V). rewrite E. cbn [bind].
        destruct (@new_rows_located (S (element_size x)) x path indices) as [N1 N2]; [lia|exact Lx|].
        edestruct IH as (o&Eo&H1&H2); [| | |exists o; split; [exact Eo|split; [exact H1|]]].
        -- unfold stack_size in *. rewrite map_app, list_sum_app, map_rev, list_sum_rev, map_map.
           erewrite (map_ext _ (fun cp => element_size (fst cp))) by (intros [? ?]; reflexivity). unfold list_sum in *. lia.
        -- intros x' path' indices' Hin. apply in_app_iff in Hin as [Hin|Hin]; [|eapply Hr; right; eauto]. apply in_rev, in_map_iff in Hin as ([c p]&Ec&Hin). inv Ec. eapply N1; eauto.
        -- intros i' o' d' E'. destruct closest as [[[ci co] cd]|].
           ++ destruct (d <? cd); [inv E'; exact V|eapply Hcl; eauto].
           ++ inv E'. exact V.
        -- intros _. apply H2. left. destruct closest as [[[ci co] cd]|]; [destruct (d <? cd); discriminate|discriminate].
Qed.
Theorem click_valid n x : parse g doc = Ok n -> render_all rs n = Ok x -> exists indices offset, get_layout_position to_bounds to_place x = Ok (indices, offset) /\ valid indices offset.
Proof.
  intros En Hx. pose proof (located_root En Hx) as L. unfold get_layout_position, get_layout_element.
  assert (K : exists c, match layout_element_containing to_bounds x [] [] with Some v => v | None => (x, [], []) end = c /\ located (snd c) (fst (fst c)) /\ element_size (fst (fst c)) <= element_size x).
  { destruct (layout_element_containing to_bounds x [] []) as [[[x' p'] i']|] eqn:E.
    - apply layout_located with (k := S (element_size x)) in E as [E1 E2]; [|lia]. eexists. split; [reflexivity|]. cbn. auto.
    - eexists. split; [reflexivity|]. cbn. auto. }
  destruct K as ([[x' p'] i']&->&L'&S'). cbn [fst snd] in *.
  destruct (@loop_valid (element_size x) [(x', p', i')] None) as (o&Eo&H1&H2).
  - unfold stack_size. cbn. lia.
  - intros y p i [E|[]]. inv E. exact L'.
  - discriminate.
  - match goal with |- context [layout_position_loop ?a ?b ?c ?d ?e] => change (layout_position_loop a b c d e) with (layout_position_loop to_bounds to_place (element_size x) [(x', p', i')] None) end.
    rewrite Eo. cbn [bind]. destruct o as [[[indices offset] d]|].
    + exists indices, offset. split; [reflexivity|]. eapply H1; eauto.
    + exfalso. apply H2; [right; discriminate|reflexivity].
Qed.
End Click.
