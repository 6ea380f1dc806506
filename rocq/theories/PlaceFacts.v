(** Different offsets are drawn at the same place exactly within leaves with fewer symbols than their range. *)
From Coq Require Import String.
From Verif Require Import Base Str Grid Node Focus Autocomplete Spec NameMap Syntax Pratt Grammar SyntaxFind Render Layout SpecSyntax SpecPratt SpecRender SpecPlace BaseFacts TreeFacts ParseFacts ParseTotal GrammarFacts FindFacts ShapeFacts RenderFacts LayoutFacts ClickFacts.
Open Scope list_scope.
Open Scope nat_scope.
Set Implicit Arguments.
Unset Strict Implicit.

Lemma leaves_row P n s e l : leaves P n -> row_leaf n s e l -> P s e l.
Proof.
  intros L H. induction H as [name ty l s e|name children s' e' n s e l Hin H IH]; [exact L|]. apply IH. cbn [leaves] in L. exact (all_leaves_in L Hin).
Qed.

Section Places.
Variable rs : Renderers.
Lemma leaf_place name ty l s e ri class path i p : text_class class = true -> get_caret_position (mkElement class (mkSyntax name (Leaf ty l) s e) ri []) path i = Ok p ->
  s <= i <= e /\ p = (path, if i <=? s then AtLeft else if e <=? i then AtRight else if List.length l <=? i - s then AtLastText else AtText (i - s)).
Proof.
  intros Hc H. destruct class; try discriminate; cbn [get_caret_position syn_range fst snd leaf_symbols syn_children] in H; apply bind_ok in H as (?&E&H);
    apply assert_inv in E; unfold offset_in_range in E; cbn in E; (split; [lia|]).
  - apply bind_ok in H as (t&Et&H). inv H. unfold leaf_spot in Et. destruct (i <=? s) eqn:E1; [reflexivity|]. destruct (e <=? i) eqn:E2; [reflexivity|].
    destruct (_ =? 0); [discriminate|]. destruct (List.length l <=? i - s) eqn:E3; now inv Et.
  - destruct (i <=? s) eqn:E1; [now inv H|]. destruct (e <=? i) eqn:E2; [now inv H|]. apply bind_ok in H as (t&Et&H). inv H. unfold leaf_spot in Et.
    destruct (_ =? 0); [discriminate|]. destruct (List.length l <=? i - s) eqn:E3; now inv Et.
Qed.
Definition children_leaf (l : list SyntaxNode) (s e : nat) (symbols : list str) : Prop := exists n, In n l /\ row_leaf n s e symbols.
Lemma same_place :
  (forall o n ri x, mirror rs o n ri x -> forall path i j p, get_caret_position x path i = Ok p -> get_caret_position x path j = Ok p -> i < j ->
     exists s e l, row_leaf n s e l /\ s < i /\ j < e /\ List.length l <= i - s) /\
  (forall o l xs, mirror_list rs o l xs -> forall path k i j p, go_caret path i k xs = Ok p -> go_caret path j k xs = Ok p -> i < j ->
     exists s e symbols, children_leaf l s e symbols /\ s < i /\ j < e /\ List.length symbols <= i - s) /\
  (forall s j l xs, mirror_rows rs s j l xs -> True).
Proof.
  apply mirror_mutind; auto.
  - intros o name ty l s e ri class Hc path i j p Hi Hj Hlt. exists s, e, l. apply leaf_place in Hi as [Ri ->]; [|exact Hc]. apply leaf_place in Hj as [Rj E]; [|exact Hc]. inv E.
    split; [constructor|]. destruct (i <=? s) eqn:E1, (j <=? s) eqn:E2; try lia; destruct (e <=? i) eqn:E3, (e <=? j) eqn:E4; try lia; try discriminate;
      destruct (List.length l <=? i - s) eqn:E5, (List.length l <=? j - s) eqn:E6; try discriminate; try lia; inv H0; lia.
  - intros o name s ri class Hc path i j p Hi Hj. destruct class; try discriminate; cbn in Hi, Hj; apply bind_ok in Hi as (?&Ei&_); apply bind_ok in Hj as (?&Ej&_); apply assert_inv in Ei, Ej; lia.
  - intros o o' name l s e ri tag xs Hl Hm IH _ path i j p Hi Hj Hlt. cbn [get_caret_position] in Hi, Hj. apply bind_ok in Hi as (?&_&Hi). apply bind_ok in Hj as (?&_&Hj).
    destruct (IH path 0 i j p Hi Hj Hlt) as (s1&e1&l1&(n&Hin&Hn)&H). exists s1, e1, l1. split; [econstructor; eauto|exact H].
  - intros o name l w s ri r class xs Hc Hl Hm _ _ path i j p Hi Hj Hlt. exfalso.
    assert (K : forall i, get_caret_position (mkElement class (mkSyntax name (NewRows (mkGrid l w)) s (S s)) r xs) path i = Ok p -> (i = s /\ snd p = AtStartReader) \/ (i = S s /\ snd p = AtEndReader)).
    { clear i j Hi Hj Hlt. intros i H. destruct class; try discriminate; cbn [get_caret_position syn_range fst snd] in H; apply bind_ok in H as (?&_&H);
        (destruct (Nat.eqb_spec i s); [inv H; now left|]; destruct (Nat.eqb_spec i (S s)); [inv H; now right|discriminate]). }
    apply K in Hi. apply K in Hj. destruct Hi as [[-> E1]|[-> E1]], Hj as [[-> E2]|[-> E2]]; try lia; congruence.
  - intros o path k i j p H. discriminate.
  - intros o n l x xs Hx IHx Hl IHl path k i j p Hi Hj Hlt. cbn [go_caret] in Hi, Hj.
    assert (K : forall i j, get_caret_position x (path ++ [k]) i = Ok p -> go_caret path j (S k) xs = Ok p -> False).
    { clear - k. intros i j Hi Hj. apply caret_path in Hi as [q E]. apply go_caret_path in Hj as (k'&q'&Hk&E'). rewrite E, <- app_assoc in E'. apply app_inv_head in E'. inv E'. lia. }
    destruct (offset_in_range (el_tree x) i), (offset_in_range (el_tree x) j).
    + destruct (IHx _ i j p Hi Hj Hlt) as (s1&e1&l1&Hn&H). exists s1, e1, l1. split; [exists n; split; [now left|exact Hn]|exact H].
    + exfalso. eauto.
    + exfalso. eauto.
    + destruct (IHl _ _ i j p Hi Hj Hlt) as (s1&e1&l1&(n'&Hin&Hn)&H). exists s1, e1, l1. split; [exists n'; split; [now right|exact Hn]|exact H].
Qed.
Lemma row_leaf_range Q row s e n s' e' l : gtree Q row s e n -> row_leaf n s' e' l -> s <= s' /\ e' <= e.
Proof.
  intros T H. revert s e T. induction H as [name ty l s' e'|name children s1 e1 n s' e' l Hin H IH]; intros s e T.
  - pose proof (gtree_range T) as E. cbn in E. inv E. lia.
  - apply gtree_children_inv in T. revert s T. induction children as [|c children IHc]; intros s T; [destruct Hin|]. apply gtiles_cons_inv in T as (m&T1&T2).
    pose proof (gtree_le T1). pose proof (gtiles_le T2). destruct Hin as [->|Hin].
    + destruct (IH _ _ T1). lia.
    + destruct (IHc Hin _ T2). lia.
Qed.
Lemma leaf_one_place Q s e symbols : symbols <> [] ->
  (forall o n ri x, mirror rs o n ri x -> forall row a b, gtree Q row a b n -> row_leaf n s e symbols -> forall path, exists p, forall i, s < i < e -> List.length symbols <= i - s -> get_caret_position x path i = Ok p) /\
  (forall o l xs, mirror_list rs o l xs -> forall row a b, gtiles Q row a b l -> children_leaf l s e symbols -> forall path k, exists p, forall i, s < i < e -> List.length symbols <= i - s -> go_caret path i k xs = Ok p) /\
  (forall s j l xs, mirror_rows rs s j l xs -> True).
Proof.
  intros Hne. apply mirror_mutind; auto.
  - intros o name ty l s0 e0 ri class Hc row a b T H path. inversion H; subst. exists (path, AtLastText). intros i Hi Hl.
    assert (Ei : offset_in_range (mkSyntax name (Leaf ty symbols) s e) i = true) by (unfold offset_in_range; cbn; lia).
    assert (Hs : leaf_spot symbols s i = Ok AtLastText).
    { unfold leaf_spot. destruct symbols as [|x symbols]; [congruence|]. cbn [List.length Nat.eqb] in *. destruct (_ <=? i - s) eqn:E; [reflexivity|lia]. }
    assert ((i <=? s) = false) as E1 by lia. assert ((e <=? i) = false) as E2 by lia.
    destruct class; try discriminate; cbn [get_caret_position syn_range fst snd leaf_symbols syn_children]; rewrite Ei; cbn [assert_ bind]; rewrite ?Hs, ?E1, ?E2; cbn [bind]; rewrite ?Hs; reflexivity.
  - intros o name s0 ri class Hc row a b T H. inversion H as [|? ? ? ? n ? ? ? Hin ?]; subst. destruct Hin.
  - intros o o' name l s0 e0 ri tag xs Hl Hm IH _ row a b T H path. pose proof (gtree_range T) as E. cbn in E. inv E. pose proof (row_leaf_range T H) as R. apply gtree_children_inv in T.
    inversion H as [|name' l' s' e' n s1 e1 sy Hin Hn]; subst. destruct (IH row _ _ T (ex_intro _ n (conj Hin Hn)) path 0) as (p&Hp). exists p. intros i Hi Hle.
    cbn [get_caret_position]. unfold offset_in_range at 1. cbn [syn_range fst snd]. assert ((a <=? i) && (i <=? b) = true) as -> by lia. cbn [assert_ bind]. now apply Hp.
  - intros o name l w s0 ri r class xs Hc Hl Hm _ _ row a b T H. inversion H.
  - intros o row a b T (n&[]&_).
  - intros o n l x xs Hx IHx Hl IHl row a b T (n'&Hin&Hn) path k. apply gtiles_cons_inv in T as (m&T1&T2). cbn [go_caret]. rewrite (mirror_tree Hx).
    assert (R : offset_in_range n = fun i => (a <=? i) && (i <=? m)) by (unfold offset_in_range; rewrite (gtree_range T1); reflexivity). rewrite R.
    destruct Hin as [<-|Hin].
    + destruct (IHx row _ _ T1 Hn (path ++ [k])) as (p&Hp). exists p. intros i Hi Hle. pose proof (row_leaf_range T1 Hn). assert ((a <=? i) && (i <=? m) = true) as -> by lia. now apply Hp.
    + destruct (IHl row _ _ T2 (ex_intro _ n' (conj Hin Hn)) path (S k)) as (p&Hp). exists p. intros i Hi Hle.
      assert (Ht : m <= s).
      { clear - T2 Hin Hn. revert m T2. induction l as [|c l IH]; intros m T2; [destruct Hin|]. apply gtiles_cons_inv in T2 as (m'&T1&T2). destruct Hin as [->|Hin].
        - apply (row_leaf_range T1 Hn).
        - pose proof (gtree_le T1). specialize (IH Hin _ T2). lia. }
      assert ((a <=? i) && (i <=? m) = false) as -> by lia. now apply Hp.
Qed.
End Places.

(** The leaves of the default grammar. *)
Lemma limit_leaves xs xc row n : parse (default_grammar xs xc) row = Ok n ->
  leaves (fun s e l => List.length l = e - s \/ exists w, In w limit_words /\ l = [w] /\ e = s + List.length w) n.
Proof.
  intros H. apply parse_shape in H; [|apply default_no_empty_tokens].
  refine (proj1 (@tree_leaves (default_grammar xs xc) (fun _ => True) _ _ _ _) _ _ _ _ H (fun _ _ _ => I)).
  - intros s e Hse. left. apply repeat_length.
  - intros s x. left. cbn [List.length]; lia.
  - intros row' s e t symbols l _ (rule&Hin&Et) Hs Hse Hr Len. destruct t as [l0 ty| | | | | |]; cbn in Hs; try easy; try (destruct Hs as [-> _]; left; exact Len). destruct Hs as [-> ->].
    assert (F : forallb (fun r => match rule_token r with Some (TSymbols l _) => (List.length l =? 1) || existsb (fun w => str_eqb w (concat l) && (List.length w =? List.length l)) limit_words | _ => true end) (g_rules (default_grammar xs xc)) = true) by (vm_compute; reflexivity).
    rewrite forallb_forall in F. apply F in Hin. rewrite Et in Hin. apply orb_prop in Hin as [Hin|Hin]; [apply Nat.eqb_eq in Hin; left; cbn; lia|].
    right. apply existsb_exists in Hin as (w&Hw&E). apply andb_prop in E as [E1 E2]. apply str_eqb_eq in E1. apply Nat.eqb_eq in E2. exists w. split; [exact Hw|]. split; [now rewrite E1|lia].
Qed.
