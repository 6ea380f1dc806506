(** Finding elements, caret positions and clicks. *)
From Coq Require Import String.
From Verif Require Import Base Str Grid Node Focus Autocomplete Spec NameMap Syntax Pratt Grammar SyntaxFind Render Layout SpecSyntax SpecPratt SpecRender BaseFacts TreeFacts ParseFacts ParseTotal GrammarFacts FindFacts ShapeFacts RenderFacts.
Open Scope list_scope.
Open Scope nat_scope.
Set Implicit Arguments.
Unset Strict Implicit.

Definition text_class (c : ElementClass) : bool := match c with TextElement _ | SymbolElement _ _ => true | _ => false end.
Definition empty_class (c : ElementClass) : bool := match c with MissingElement | NothingElement => true | _ => false end.
Definition rows_class (c : ElementClass) : bool := match c with RowsContainer _ | RootElement | TableElement => true | _ => false end.

(** The number of nodes *)
Fixpoint syn_size (n : SyntaxNode) : nat :=
  match n with
  | mkSyntax _ (NewRows (mkGrid l _)) _ _ | mkSyntax _ (Children l) _ _ => S (list_sum (map syn_size l))
  | mkSyntax _ (Leaf _ _) _ _ => 1
  end.
Lemma syn_size_child l n : In n l -> syn_size n <= list_sum (map syn_size l).
Proof. induction l as [|a l IH]; [easy|]. intros [<-|H]; cbn; [lia|]. apply IH in H. unfold list_sum in *. lia. Qed.

(** All leaves satisfy a predicate on their range and symbols. *)
Fixpoint leaves (P : nat -> nat -> list str -> Prop) (n : SyntaxNode) : Prop :=
  match n with
  | mkSyntax _ (NewRows (mkGrid l _)) _ _ | mkSyntax _ (Children l) _ _ => fold_right and True (map (leaves P) l)
  | mkSyntax _ (Leaf _ l) s e => P s e l
  end.
Definition all_leaves (P : nat -> nat -> list str -> Prop) (l : list SyntaxNode) : Prop := fold_right and True (map (leaves P) l).
Lemma all_leaves_in P l n : all_leaves P l -> In n l -> leaves P n.
Proof. induction l as [|a l IH]; [easy|]. intros [Ha Hl] [<-|H]; auto. Qed.

Lemma gtiles_cons_inv Q row s e n l : gtiles Q row s e (n :: l) -> exists m, gtree Q row s m n /\ gtiles Q row m e l.
Proof. intros H. inv H. eauto. Qed.
Lemma gtree_children_inv Q row s e name l s' e' : gtree Q row s e (mkSyntax name (Children l) s' e') -> gtiles Q row s e l.
Proof. intros H. now inv H. Qed.

Section Mirror.
Variable rs : Renderers.
Definition script_named (n : SyntaxNode) : Prop := exists tag, get_renderer rs (syn_name n) = Some (RenderScript tag).
(** The element of a node with a row index; [o] is the override of its row index. *)
Inductive mirror : option (option RowIndex) -> SyntaxNode -> option RowIndex -> Element -> Prop :=
| m_leaf o name ty l s e ri class : text_class class = true ->
    mirror o (mkSyntax name (Leaf ty l) s e) ri (mkElement class (mkSyntax name (Leaf ty l) s e) ri [])
| m_empty o name s ri class : empty_class class = true ->
    mirror o (mkSyntax name (Children []) s s) ri (mkElement class (mkSyntax name (Children []) s s) ri [])
| m_children o o' name l s e ri tag xs : l <> [] -> mirror_list o' l xs ->
    o' = None \/ o' = o \/ o' = Some ri /\ script_named (mkSyntax name (Children l) s e) ->
    mirror o (mkSyntax name (Children l) s e) ri (mkElement (SimpleContainer tag) (mkSyntax name (Children l) s e) ri xs)
| m_rows o name l w s ri r class xs : rows_class class = true -> l <> [] -> mirror_rows s 0 l xs -> r = ri \/ o = Some r ->
    mirror o (mkSyntax name (NewRows (mkGrid l w)) s (S s)) ri (mkElement class (mkSyntax name (NewRows (mkGrid l w)) s (S s)) r xs)
with mirror_list : option (option RowIndex) -> list SyntaxNode -> list Element -> Prop :=
| ml_nil o : mirror_list o [] []
| ml_cons o n l x xs : mirror o n None x -> mirror_list o l xs -> mirror_list o (n :: l) (x :: xs)
with mirror_rows : nat -> nat -> list SyntaxNode -> list Element -> Prop :=
| mr_nil s j : mirror_rows s j [] []
| mr_cons s j n l x xs : mirror None n (Some (s, j)) x -> mirror_rows s (S j) l xs -> mirror_rows s j (n :: l) (x :: xs).
Scheme mirror_mut := Induction for mirror Sort Prop
  with mirror_list_mut := Induction for mirror_list Sort Prop
  with mirror_rows_mut := Induction for mirror_rows Sort Prop.
Combined Scheme mirror_mutind from mirror_mut, mirror_list_mut, mirror_rows_mut.

Lemma mirror_tree o n ri x : mirror o n ri x -> el_tree x = n.
Proof. intros H. inv H; reflexivity. Qed.
Lemma mirror_row_index o n ri x : mirror o n ri x -> el_row_index x = ri \/ o = Some (el_row_index x).
Proof. intros H. inv H; auto. Qed.
Lemma mirror_children_length o l xs : mirror_list o l xs -> List.length xs = List.length l.
Proof. induction 1; cbn; congruence. Qed.

Lemma rendered_list (o : Options) l : (forall n, In n l -> forall ri o x, render rs n ri o = Ok x -> mirror (opt_override o) n ri x) -> forall k xs,
  mapi_res (fun _ c => render rs c None o) k l = Ok xs -> mirror_list (opt_override o) l xs.
Proof.
  induction l as [|n l IH]; intros Hl k xs H; cbn [mapi_res] in H; [inv H; constructor|]. apply bind_ok in H as (x&Ex&H). apply bind_ok in H as (r&Er&H). inv H.
  constructor; [apply Hl; [now left|exact Ex]|]. eapply IH; eauto. intros n' Hn'. apply Hl. now right.
Qed.
Lemma rendered_rows s l : (forall n, In n l -> forall ri o x, render rs n ri o = Ok x -> mirror (opt_override o) n ri x) -> forall k xs,
  mapi_res (fun j c => render rs c (Some (s, j)) no_options) k l = Ok xs -> mirror_rows s k l xs.
Proof.
  induction l as [|n l IH]; intros Hl k xs H; cbn [mapi_res] in H; [inv H; constructor|]. apply bind_ok in H as (x&Ex&H). apply bind_ok in H as (r&Er&H). inv H.
  constructor; [apply (Hl n (or_introl eq_refl)) in Ex; exact Ex|]. eapply IH; eauto. intros n' Hn'. apply Hl. now right.
Qed.
Lemma render_mirror : forall k n ri o x, syn_size n < k -> render rs n ri o = Ok x -> mirror (opt_override o) n ri x.
Proof.
  induction k as [|k IH]; intros n ri o x Hk H; [lia|]. rewrite render_eq in H.
  assert (S1 : forall tag o' y, simple_container rs n ri tag o' = Ok y -> opt_override o' = None \/ opt_override o' = opt_override o \/ opt_override o' = Some ri /\ script_named n -> mirror (opt_override o) n ri y).
  { intros tag o' y Hy Ho. unfold simple_container in Hy. apply bind_ok in Hy as (xs&Ex&Hy). apply bind_ok in Hy as (?&Hl&Hy). apply bind_ok in Hy as (?&_&Hy). inv Hy. apply assert_inv in Hl.
    destruct n as [name c s e]. cbn [syn_children render_children] in *. destruct c as [|l|]; try discriminate.
    assert (L : mirror_list (opt_override o') l xs). { eapply rendered_list; [|exact Ex]. intros n Hn ri' o'' y' E'. apply IH; auto. pose proof (syn_size_child Hn). cbn in Hk. lia. }
    econstructor; eauto. intros ->. inv L. discriminate. }
  assert (S2 : forall class tag r y, rows_container rs n class tag r = Ok y -> rows_class class = true -> r = ri \/ opt_override o = Some r -> mirror (opt_override o) n ri y).
  { intros class tag r y Hy Hc Ho. unfold rows_container in Hy. apply bind_ok in Hy as (?&He&Hy). apply bind_ok in Hy as (xs&Ex&Hy). apply bind_ok in Hy as (?&Hl&Hy). apply bind_ok in Hy as (?&_&Hy). inv Hy.
    apply assert_inv in Hl, He. destruct n as [name c s e]. cbn [syn_children syn_range fst snd render_rows] in *. destruct c as [[l w]| |]; try discriminate. apply Nat.eqb_eq in He. subst e.
    assert (L : mirror_rows s 0 l xs). { eapply rendered_rows; [|exact Ex]. intros n Hn ri' o'' y' E'. apply IH; auto. pose proof (syn_size_child Hn). cbn in Hk. lia. }
    econstructor; eauto. intros ->. inv L. discriminate. }
  unfold render_node in H. destruct n as [name c s e]. cbn [syn_range syn_name syn_children] in H, S1, S2.
  destruct (get_renderer rs name) as [r|] eqn:Er; [|discriminate]. destruct r as [|tag| | |tag|tag| | | |b].
  - destruct c as [|[|]|]; try discriminate. apply bind_ok in H as (?&He&H). inv H. apply assert_inv, Nat.eqb_eq in He. subst. now constructor.
  - destruct c; try discriminate. inv H. now constructor.
  - eapply S1; eauto.
  - destruct c as [gr|l|ty l].
    + destruct (opt_override o) as [r|] eqn:Eo; [|discriminate]. eapply S2; eauto.
    + eapply S1; eauto.
    + inv H. now constructor.
  - eapply S2; eauto.
  - destruct c as [gr|l|ty l]; try discriminate. apply bind_ok in H as (?&_&H). eapply S1; eauto. right. right. split; [reflexivity|]. exists tag. exact Er.
  - eapply S2; eauto.
  - destruct c as [[l w]|l|ty l]; try discriminate. apply bind_ok in H as (?&_&H). apply bind_ok in H as (?&_&H). eapply S2; eauto.
  - destruct c as [|[|]|]; try discriminate. apply bind_ok in H as (?&He&H). inv H. apply assert_inv, Nat.eqb_eq in He. subst. now constructor.
  - eapply S1; eauto.
Qed.
Theorem render_all_mirror n x : render_all rs n = Ok x -> mirror None n None x.
Proof. intros H. exact (render_mirror (Nat.lt_succ_diag_r _) H). Qed.

(** ** Finding elements *)
Definition go_element (x : Element) (k : nat) : list Element -> Element :=
  fix go l := match l with [] => x | c :: l => if in_range (el_tree c) k then get_child_with_container_index c k else go l end.
Lemma child_with_container k grid :
  (forall o n ri x, mirror o n ri x -> get_child_with_new_rows n k = Ok grid -> exists s, mirror_rows s 0 (gvalues grid) (get_children (get_child_with_container_index x k))) /\
  (forall o l xs, mirror_list o l xs -> forall x, go_child k l = Ok grid -> exists s, mirror_rows s 0 (gvalues grid) (get_children (go_element x k xs))) /\
  (forall s j l xs, mirror_rows s j l xs -> True).
Proof.
  apply mirror_mutind; auto; try discriminate.
  - intros o o' name l s e ri tag xs Hl Hm IH Ho H. cbn [get_child_with_container_index syn_children]. now apply IH.
  - intros o name l w s ri r class xs Hc Hl Hm _ Hr H. cbn in H. inv H. exists s. exact Hm.
  - intros o n l x xs Hx IHx Hl IHl y H. cbn [go_child] in H. cbn [go_element]. rewrite (mirror_tree Hx). destruct (in_range n k); [now apply IHx|now apply IHl].
Qed.
Lemma find_row_element s l xs : forall i j n, mirror_rows s i l xs -> nth_error l j = Some n -> exists x, List.find (has_row (i + j)) xs = Some x /\ mirror None n (Some (s, i + j)) x.
Proof.
  intros i j n H. revert j n; induction H as [s i|s i n0 l x0 xs Hx Hl IH]; intros j n E; [destruct j; discriminate|].
  assert (Ex : el_row_index x0 = Some (s, i)) by (destruct (mirror_row_index Hx); [assumption|discriminate]). cbn [List.find]. unfold has_row. rewrite Ex.
  destruct j as [|j].
  - cbn in E. inv E. rewrite Nat.add_0_r. rewrite Nat.eqb_refl. eauto.
  - cbn in E. destruct (Nat.eqb_spec i (i + S j)); [lia|]. replace (i + S j) with (S i + j) by lia. now apply IH.
Qed.
Theorem get_element_mirror p : forall o n ri x n', mirror o n ri x -> get_node_with_row_indices n p = Ok n' -> exists x' o' ri', get_element x p = Ok x' /\ mirror o' n' ri' x'.
Proof.
  induction p as [|[k j] p IH]; intros o n ri x n' Hm H; cbn [get_node_with_row_indices get_element] in *.
  - inv H. exists x, o, ri. auto.
  - rewrite (mirror_tree Hm). apply bind_ok in H as ([]&E&H). apply assert_inv in E. rewrite E. cbn [assert_ bind]. apply bind_ok in H as (grid&Eg&H).
    destruct (proj1 (child_with_container k grid) _ _ _ _ Hm Eg) as (s&Hr). destruct (nth_error (gvalues grid) j) as [c|] eqn:Ej; [|discriminate].
    destruct (find_row_element Hr Ej) as (y&Ey&My). cbn in Ey. rewrite Ey. eapply IH; eauto.
Qed.

(** ** Caret positions *)
Definition go_caret (path : list nat) (i : nat) : nat -> list Element -> Res Place :=
  fix go k l := match l with [] => throw | c :: l => if offset_in_range (el_tree c) i then get_caret_position c (path ++ [k]) i else go (S k) l end.
Lemma caret_total Q :
  (forall o n ri x, mirror o n ri x -> forall row s e, gtree Q row s e n -> leaves (fun _ _ l => l <> []) n -> forall path i, s <= i <= e -> exists p, get_caret_position x path i = Ok p) /\
  (forall o l xs, mirror_list o l xs -> forall row s e, gtiles Q row s e l -> all_leaves (fun _ _ l => l <> []) l -> l <> [] -> forall path k i, s <= i <= e -> exists p, go_caret path i k xs = Ok p) /\
  (forall s j l xs, mirror_rows s j l xs -> True).
Proof.
  apply mirror_mutind; auto.
  - intros o name ty l s0 e0 ri class Hc row s e T L path i Hi. pose proof (gtree_range T) as E. cbn in E. inv E. cbn in L.
    assert (Ei : offset_in_range (mkSyntax name (Leaf ty l) s e) i = true) by (unfold offset_in_range; cbn; lia).
    assert (Hs : exists t, leaf_spot l s i = Ok t) by (unfold leaf_spot; destruct l; [congruence|]; cbn [List.length Nat.eqb]; destruct (_ <=? _); eauto).
    destruct Hs as [t Hs]. destruct class; try discriminate; cbn [get_caret_position syn_range fst snd leaf_symbols syn_children]; rewrite Ei; cbn [assert_ bind]; rewrite Hs; cbn [bind]; eauto.
    destruct (i <=? s); [eauto|]. destruct (e <=? i); eauto.
  - intros o name s0 ri class Hc row s e T L path i Hi. pose proof (gtree_range T) as E. cbn in E. inv E. assert (i = e) as -> by lia.
    destruct class; try discriminate; cbn; rewrite Nat.eqb_refl; cbn; eauto.
  - intros o o' name l s0 e0 ri tag xs Hl Hm IH _ row s e T L path i Hi. pose proof (gtree_range T) as E. cbn in E. inv E. apply gtree_children_inv in T.
    cbn [get_caret_position]. unfold offset_in_range at 1. cbn [syn_range fst snd]. assert ((s <=? i) && (i <=? e) = true) as -> by lia. cbn [assert_ bind].
    eapply IH; eauto.
  - intros o name l w s0 ri r class xs Hc Hl Hm _ _ row s e T L path i Hi. pose proof (gtree_range T) as E. cbn in E. inv E.
    assert (K : exists p, (_ <- assert_ (offset_in_range (mkSyntax name (NewRows (mkGrid l w)) s (S s)) i) ;;
      (if i =? s then Ok (path, AtStartReader) else if i =? S s then Ok (path, AtEndReader) else throw)) = Ok p).
    { unfold offset_in_range. cbn [syn_range fst snd]. assert ((s <=? i) && (i <=? S s) = true) as -> by lia. cbn [assert_ bind].
      destruct (Nat.eqb_spec i s); [eauto|]. destruct (Nat.eqb_spec i (S s)); [eauto|lia]. }
    destruct class; try discriminate; exact K.
  - intros o row s e T L Hl. congruence.
  - intros o n l x xs Hx IHx Hl IHl row s e T L _ path k i Hi. apply gtiles_cons_inv in T as (m&T1&T2). destruct L as [L1 L2]. cbn [go_caret]. rewrite (mirror_tree Hx). unfold offset_in_range. rewrite (gtree_range T1). cbn [fst snd].
    destruct ((s <=? i) && (i <=? m)) eqn:E; [eapply IHx; eauto; lia|]. pose proof (gtree_le T1). destruct l as [|n' l].
    + inv T2. lia.
    + eapply (IHl _ _ _ T2); eauto; [discriminate|lia].
Qed.
Lemma caret_path : (forall x path i p, get_caret_position x path i = Ok p -> exists q, fst p = path ++ q).
Proof.
  fix IH 1. intros x path i p H.
  assert (G : forall l k p, go_caret path i k l = Ok p -> (forall c, In c l -> forall path i p, get_caret_position c path i = Ok p -> exists q, fst p = path ++ q) -> exists q, fst p = path ++ q).
  { clear. intros l. induction l as [|c l IHl]; intros k p H K; cbn [go_caret] in H; [discriminate|]. destruct (offset_in_range (el_tree c) i).
    - apply (K c (or_introl eq_refl)) in H as [q ->]. rewrite <- app_assoc. eauto.
    - eapply IHl; eauto. intros c' Hc'. apply K. now right. }
  destruct x as [class n ri xs]. assert (K : forall c, In c xs -> forall path i p, get_caret_position c path i = Ok p -> exists q, fst p = path ++ q).
  { clear - IH. induction xs as [|c xs IHx]; intros c' Hc; [destruct Hc|]. destruct Hc as [<-|Hc]; [intros; eapply IH; eauto|now apply IHx]. }
  clear IH. destruct class; cbn [get_caret_position] in H; apply bind_ok in H as (?&_&H).
  - eapply G; eauto.
  - destruct (_ =? _); [|destruct (_ =? _); [|discriminate]]; inv H; exists []; now rewrite app_nil_r.
  - destruct (_ =? _); [|destruct (_ =? _); [|discriminate]]; inv H; exists []; now rewrite app_nil_r.
  - destruct (_ =? _); [|destruct (_ =? _); [|discriminate]]; inv H; exists []; now rewrite app_nil_r.
  - apply bind_ok in H as (?&_&H). inv H. exists []. now rewrite app_nil_r.
  - destruct (_ <=? _); [inv H; exists []; now rewrite app_nil_r|]. destruct (_ <=? _); [inv H; exists []; now rewrite app_nil_r|]. apply bind_ok in H as (?&_&H). inv H. exists []. now rewrite app_nil_r.
  - inv H. exists []. now rewrite app_nil_r.
  - inv H. exists []. now rewrite app_nil_r.
Qed.
Lemma go_caret_path path i l : forall k p, go_caret path i k l = Ok p -> exists k' q, k <= k' /\ fst p = path ++ k' :: q.
Proof.
  induction l as [|c l IH]; intros k p H; cbn [go_caret] in H; [discriminate|]. destruct (offset_in_range (el_tree c) i).
  - apply caret_path in H as [q ->]. exists k, q. rewrite <- app_assoc. auto.
  - apply IH in H as (k'&q&Hk&E). exists k', q. split; [lia|exact E].
Qed.
Lemma caret_injective :
  (forall o n ri x, mirror o n ri x -> leaves (fun s e l => List.length l = e - s) n -> forall path i j p, get_caret_position x path i = Ok p -> get_caret_position x path j = Ok p -> i = j) /\
  (forall o l xs, mirror_list o l xs -> all_leaves (fun s e l => List.length l = e - s) l -> forall path k i j p, go_caret path i k xs = Ok p -> go_caret path j k xs = Ok p -> i = j) /\
  (forall s j l xs, mirror_rows s j l xs -> True).
Proof.
  apply mirror_mutind; auto.
  - intros o name ty l s e ri class Hc L path i j p Hi Hj. cbn in L.
    assert (K : forall i p, get_caret_position (mkElement class (mkSyntax name (Leaf ty l) s e) ri []) path i = Ok p ->
      s <= i <= e /\ p = (path, if i <=? s then AtLeft else if e <=? i then AtRight else AtText (i - s))).
    { clear i j p Hi Hj. intros i p H. destruct class; try discriminate; cbn [get_caret_position syn_range fst snd leaf_symbols syn_children] in H; apply bind_ok in H as (?&E&H);
        apply assert_inv in E; unfold offset_in_range in E; cbn in E; (split; [lia|]).
      - apply bind_ok in H as (t&Et&H). inv H. unfold leaf_spot in Et. destruct (i <=? s) eqn:E1; [reflexivity|]. destruct (e <=? i) eqn:E2; [reflexivity|].
        destruct (_ =? 0); [discriminate|]. destruct (List.length l <=? i - s) eqn:E3; [lia|]. now inv Et.
      - destruct (i <=? s) eqn:E1; [now inv H|]. destruct (e <=? i) eqn:E2; [now inv H|]. apply bind_ok in H as (t&Et&H). inv H. unfold leaf_spot in Et.
        destruct (_ =? 0); [discriminate|]. destruct (List.length l <=? i - s) eqn:E3; [lia|]. now inv Et. }
    apply K in Hi as [Ri ->]. apply K in Hj as [Rj E]. inv E.
    destruct (i <=? s) eqn:E1, (j <=? s) eqn:E2; try lia; destruct (e <=? i) eqn:E3, (e <=? j) eqn:E4; try lia; try discriminate; inv H0; lia.
  - intros o name s ri class Hc L path i j p Hi Hj. destruct class; try discriminate; cbn in Hi, Hj; apply bind_ok in Hi as (?&Ei&_); apply bind_ok in Hj as (?&Ej&_); apply assert_inv in Ei, Ej; lia.
  - intros o o' name l s e ri tag xs Hl Hm IH _ L path i j p Hi Hj. cbn [get_caret_position] in Hi, Hj. apply bind_ok in Hi as (?&_&Hi). apply bind_ok in Hj as (?&_&Hj).
    eapply (IH L path 0); eauto.
  - intros o name l w s ri r class xs Hc Hl Hm _ _ L path i j p Hi Hj.
    assert (K : forall i, get_caret_position (mkElement class (mkSyntax name (NewRows (mkGrid l w)) s (S s)) r xs) path i = Ok p -> (i = s /\ snd p = AtStartReader) \/ (i = S s /\ snd p = AtEndReader)).
    { clear i j Hi Hj. intros i H. destruct class; try discriminate; cbn [get_caret_position syn_range fst snd] in H; apply bind_ok in H as (?&_&H);
        (destruct (Nat.eqb_spec i s); [inv H; now left|]; destruct (Nat.eqb_spec i (S s)); [inv H; now right|discriminate]). }
    apply K in Hi. apply K in Hj. destruct Hi as [[-> E1]|[-> E1]], Hj as [[-> E2]|[-> E2]]; congruence.
  - intros o L path k i j p H. discriminate.
  - intros o n l x xs Hx IHx Hl IHl L path k i j p Hi Hj. destruct L as [L1 L2]. cbn [go_caret] in Hi, Hj.
    assert (K : forall i j, get_caret_position x (path ++ [k]) i = Ok p -> go_caret path j (S k) xs = Ok p -> False).
    { clear - k. intros i j Hi Hj. apply caret_path in Hi as [q E]. apply go_caret_path in Hj as (k'&q'&Hk&E'). rewrite E, <- app_assoc in E'. apply app_inv_head in E'. inv E'. lia. }
    destruct (offset_in_range (el_tree x) i), (offset_in_range (el_tree x) j).
    + eapply IHx; eauto.
    + exfalso. eauto.
    + exfalso. eauto.
    + eapply IHl; eauto.
Qed.

(** ** Selections *)
Definition go_selection (a b : nat) (path : list nat) : nat -> list Element -> list (list nat) :=
  fix go k l := match l with [] => [] | c :: l => selection_elements a b c (path ++ [k]) ++ go (S k) l end.
Lemma selection_some Q a b : a < b ->
  (forall o n ri x, mirror o n ri x -> forall row s e, gtree Q row s e n -> a < e -> s < b -> forall path, selection_elements a b x path <> []) /\
  (forall o l xs, mirror_list o l xs -> forall row s e, gtiles Q row s e l -> forall i, s <= i < e -> a <= i < b -> forall path k, go_selection a b path k xs <> []) /\
  (forall s j l xs, mirror_rows s j l xs -> True).
Proof.
  intros Hab. apply mirror_mutind; auto.
  - intros o name ty l s0 e0 ri class Hc row s e T Ha Hb path. pose proof (gtree_range T) as E. cbn in E. inv E. cbn [selection_elements syn_range].
    assert ((b <=? s) || (e <=? a) = false) as -> by lia. cbn [List.length Nat.ltb]. destruct (negb _); cbn; discriminate.
  - intros o name s0 ri class Hc row s e T Ha Hb path. pose proof (gtree_range T) as E. cbn in E. inv E. cbn [selection_elements syn_range].
    assert ((b <=? e) || (e <=? a) = false) as -> by lia. destruct (negb _); cbn; discriminate.
  - intros o o' name l s0 e0 ri tag xs Hl Hm IH _ row s e T Ha Hb path. pose proof (gtree_range T) as E. cbn in E. inv E. apply gtree_children_inv in T. cbn [selection_elements syn_range].
    assert ((b <=? s) || (e <=? a) = false) as -> by lia. destruct (negb _ && _) eqn:E; [|discriminate].
    apply (IH _ _ _ T (Nat.max a s)); pose proof (gtiles_le T); try lia.
  - intros o name l w s0 ri r class xs Hc Hl Hm _ _ row s e T Ha Hb path. pose proof (gtree_range T) as E. cbn in E. inv E. cbn [selection_elements syn_range].
    assert ((b <=? s) || (S s <=? a) = false) as -> by lia. assert ((a <=? s) && (S s <=? b) = true) as -> by lia. discriminate.
  - intros o row s e T i Hi. inv T. lia.
  - intros o n l x xs Hx IHx Hl IHl row s e T i Hi Hab' path k. apply gtiles_cons_inv in T as (m&T1&T2). cbn [go_selection]. intros E. apply app_eq_nil in E as [E1 E2].
    destruct (le_lt_dec m i).
    + eapply (IHl _ _ _ T2 i); eauto. lia.
    + eapply (IHx _ _ _ T1); eauto; lia.
Qed.
End Mirror.
