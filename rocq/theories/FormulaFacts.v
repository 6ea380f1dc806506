(** Formulas are read as they are written. *)
From Coq Require Import String.
From Verif Require Import Base Str Grid Node Spec Autocomplete NameMap Syntax Pratt Grammar SpecSyntax SpecPratt SpecFormula BaseFacts NameMapFacts TreeFacts ParseFacts ParseTotal PrattFacts GrammarFacts.
Open Scope list_scope.
Open Scope nat_scope.
Set Implicit Arguments.
Unset Strict Implicit.

(** ** Parts of formulas *)
Definition row_of (before : nat) (a : Formula) : InputRow := spaces before ++ written a.
Definition written_scripts (s : Scripts Formula) : InputRow :=
  flat_map (fun '(u, before, a, after) => Container (script u) (mkGrid [row_of before a] 1) :: spaces after) s.
Definition atom_row (a : Atom Formula) : InputRow :=
  match a with
  | AVariable s l => map Symbol (s :: l)
  | ANumber c l d => map Symbol (number_symbols c l d)
  | AConstant c => [sign (constant_char c)]
  | AString l => map Symbol (string_symbols l)
  | AEmpty => [sign 40; sign 41]
  | ABrackets before a => sign 40 :: row_of before a ++ [sign 41]
  | ACells v w cells => [Container v (mkGrid (map (fun '(before, a) => row_of before a) cells) w)]
  end.
Definition postfix_row (op : Postfix Formula) : InputRow :=
  match op with
  | PFactorial => [sign 33]
  | PCall => [sign 40; sign 41]
  | PApply before b => sign 40 :: row_of before b ++ [sign 41]
  | PScript u before b => [Container (script u) (mkGrid [row_of before b] 1)]
  end.
Lemma written_atom a k : written (FAtom a k) = atom_row a ++ spaces k.
Proof. destruct a; cbn [written atom_row]; unfold row_of; rewrite <- ?app_assoc; reflexivity. Qed.
Lemma written_prefix op k s a : written (FPrefix op k s a) = map Symbol (single (prefix_text op)) ++ spaces k ++ written_scripts s ++ written a.
Proof. reflexivity. Qed.
Lemma written_infix a op k s b : written (FInfix a op k s b) = written a ++ sign (infix_char op) :: spaces k ++ written_scripts s ++ written b.
Proof. reflexivity. Qed.
Lemma written_postfix a op k : written (FPostfix a op k) = written a ++ postfix_row op ++ spaces k.
Proof. destruct op; cbn [written postfix_row]; unfold row_of; rewrite <- ?app_assoc; reflexivity. Qed.
Lemma spaces_length k : length (spaces k) = k.
Proof. apply repeat_length. Qed.
Lemma width_atom a k : width (FAtom a k) = length (atom_row a) + k.
Proof. unfold width. now rewrite written_atom, app_length, spaces_length. Qed.
Lemma width_prefix op k s a : width (FPrefix op k s a) = length (prefix_text op) + k + length (written_scripts s) + width a.
Proof. unfold width. rewrite written_prefix, !app_length, spaces_length, map_length. unfold single. rewrite map_length. lia. Qed.
Lemma width_infix a op k s b : width (FInfix a op k s b) = width a + 1 + k + length (written_scripts s) + width b.
Proof. unfold width. rewrite written_infix, !app_length. cbn [length]. rewrite !app_length, spaces_length. lia. Qed.
Lemma width_postfix a op k : width (FPostfix a op k) = width a + length (postfix_row op) + k.
Proof. unfold width. rewrite written_postfix, !app_length, spaces_length. lia. Qed.

Definition script_tree (n : SyntaxNode) (x : bool * nat * Formula * nat) : SyntaxNode :=
  let '(u, before, a, after) := x in
  mkSyntax (cells_name (script u)) (Children [n; spaced operator_name (NewRows (mkGrid [tree before 0 a] 1)) (end_of n) 0 1 after]) (start_of n) (end_of n + 1 + after).
Definition scripts_tree (s : Scripts Formula) (n : SyntaxNode) : SyntaxNode := fold_left script_tree s n.
Definition atom_content (p : nat) (a : Atom Formula) : SyntaxNodeChildren :=
  match a with
  | AVariable s l => Leaf LSymbol (s :: l)
  | ANumber c l d => Leaf LSymbol (number_symbols c l d)
  | AConstant c => Leaf LSymbol [[constant_char c]]
  | AString l => Leaf LSymbol (string_symbols l)
  | AEmpty => Children [op_leaf 40 p; op_leaf 41 (S p)]
  | ABrackets inner a => in_brackets p (tree inner (S p) a)
  | ACells v w cells => NewRows (mkGrid (map (fun '(inner, a) => tree inner 0 a) cells) w)
  end.
Definition postfix_content (q : nat) (op : Postfix Formula) : SyntaxNodeChildren :=
  match op with
  | PFactorial => Leaf LOperator [[33%N]]
  | PCall => Children [op_leaf 40 q; op_leaf 41 (S q)]
  | PApply inner b => in_brackets q (tree inner (S q) b)
  | PScript _ inner b => NewRows (mkGrid [tree inner 0 b] 1)
  end.
Definition prefix_value (before p : nat) (op : Prefix) (k : nat) (s : Scripts Formula) : SyntaxNode :=
  scripts_tree s (spaced operator_name (Leaf LOperator [prefix_text op]) p before (length (prefix_text op)) k).
Definition infix_value (q : nat) (op : Infix) (k : nat) (s : Scripts Formula) : SyntaxNode :=
  scripts_tree s (spaced operator_name (Leaf LOperator [[infix_char op]]) q 0 1 k).
Definition postfix_value (q : nat) (op : Postfix Formula) (k : nat) : SyntaxNode :=
  spaced operator_name (postfix_content q op) q 0 (length (postfix_row op)) k.
Lemma tree_atom before p a k : tree before p (FAtom a k) = spaced (atom_name a) (atom_content (p + before) a) p before (length (atom_row a)) k.
Proof. cbn [tree]. rewrite width_atom. replace (length (atom_row a) + k - k) with (length (atom_row a)) by lia. destruct a; reflexivity. Qed.
Lemma fold_left_ext A B (f f' : A -> B -> A) : (forall x y, f x y = f' x y) -> forall l x, fold_left f l x = fold_left f' l x.
Proof. intros H l. induction l as [|y l IH]; intros x; cbn; [reflexivity|]. now rewrite H. Qed.
Lemma scripts_tree_eq s n : fold_left (fun n '(u, before, a, after) =>
    let q := snd (syn_range n) in
    mkSyntax (cells_name (script u)) (Children [n; spaced operator_name (NewRows (mkGrid [tree before 0 a] 1)) q 0 1 after]) (fst (syn_range n)) (q + 1 + after)) s n = scripts_tree s n.
Proof. apply fold_left_ext. intros x [[[u b] a] k]. reflexivity. Qed.
Lemma tree_prefix before p op k s a : tree before p (FPrefix op k s a) =
  mkSyntax (prefix_name op) (Children [prefix_value before p op k s; tree 0 (end_of (prefix_value before p op k s)) a]) p (p + before + width (FPrefix op k s a)).
Proof. cbn [tree]. cbv zeta. rewrite scripts_tree_eq. reflexivity. Qed.
Lemma tree_infix before p a op k s b : tree before p (FInfix a op k s b) =
  let v := infix_value (p + before + width a) op k s in
  mkSyntax (infix_name op) (Children [tree before p a; v; tree 0 (end_of v) b]) p (p + before + width (FInfix a op k s b)).
Proof. cbn [tree]. cbv zeta. rewrite scripts_tree_eq. reflexivity. Qed.
Lemma tree_postfix before p a op k : tree before p (FPostfix a op k) =
  mkSyntax (postfix_name op) (Children [tree before p a; postfix_value (p + before + width a) op k]) p (p + before + width (FPostfix a op k)).
Proof. cbn [tree]. cbv zeta. rewrite width_postfix. replace (width a + length (postfix_row op) + k - width a - k) with (length (postfix_row op)) by lia. destruct op; reflexivity. Qed.

Definition in_atom (f : Formula) (a : Atom Formula) : Prop :=
  match a with ABrackets _ b => b = f | ACells _ _ cells => exists before, In (before, f) cells | _ => False end.
Definition in_postfix (f : Formula) (op : Postfix Formula) : Prop := match op with PApply _ b | PScript _ _ b => b = f | _ => False end.
Definition in_scripts (f : Formula) (s : Scripts Formula) : Prop := exists u before after, In (u, before, f, after) s.
Section Induction.
Variable P : Formula -> Prop.
Hypothesis Hatom : forall a k, (forall f, in_atom f a -> P f) -> P (FAtom a k).
Hypothesis Hprefix : forall op k s a, (forall f, in_scripts f s -> P f) -> P a -> P (FPrefix op k s a).
Hypothesis Hinfix : forall a op k s b, P a -> (forall f, in_scripts f s -> P f) -> P b -> P (FInfix a op k s b).
Hypothesis Hpostfix : forall a op k, P a -> (forall f, in_postfix f op -> P f) -> P (FPostfix a op k).
Lemma formula_induction : forall f, P f.
Proof.
  fix IH 1. intros [a k|op k s a|a op k s b|a op k].
  - apply Hatom. destruct a as [ | | | | |before a|v w cells]; cbn [in_atom]; intros f Hf; try destruct Hf.
    + apply IH.
    + induction cells as [|[b1 y] cells IHc]; [destruct H|]. destruct H as [E|H]; [injection E as _ <-; apply IH|exact (IHc H)].
  - apply Hprefix; [|apply IH]. intros f (u&b0&k0&H). induction s as [|[[[u1 b1] x] k1] s IHs]; [destruct H|]. destruct H as [E|H]; [injection E as _ _ <- _; apply IH|exact (IHs H)].
  - apply Hinfix; [apply IH| |apply IH]. intros f (u&b0&k0&H). induction s as [|[[[u1 b1] x] k1] s IHs]; [destruct H|]. destruct H as [E|H]; [injection E as _ _ <- _; apply IH|exact (IHs H)].
  - apply Hpostfix; [apply IH|]. destruct op as [| |b0 x|u b0 x]; cbn [in_postfix]; intros f Hf; try destruct Hf; apply IH.
Qed.
End Induction.
Lemma fold_scripts (Q : Formula -> Prop) (s : Scripts Formula) : fold_right (fun '(_, _, a, _) rest => Q a /\ rest) True s <-> (forall f, in_scripts f s -> Q f).
Proof.
  induction s as [|[[[u b] a] k] s IH]; cbn [fold_right].
  - split; [intros _ f (?&?&?&[])|auto].
  - rewrite IH. split.
    + intros [H H'] f (u'&b'&k'&[E|Hf]); [inv E; exact H|]. apply H'. exists u', b', k'. exact Hf.
    + intros H. split; [apply H; exists u, b, k; now left|]. intros f (u'&b'&k'&Hf). apply H. exists u', b', k'. now right.
Qed.
Lemma fold_cells (Q : Formula -> Prop) (cells : list (nat * Formula)) : fold_right (fun '(_, a) rest => Q a /\ rest) True cells <-> (forall f, (exists b, In (b, f) cells) -> Q f).
Proof.
  induction cells as [|[b a] s IH]; cbn [fold_right].
  - split; [intros _ f (?&[])|auto].
  - rewrite IH. split.
    + intros [H H'] f (b'&[E|Hf]); [inv E; exact H|]. apply H'. exists b'. exact Hf.
    + intros H. split; [apply H; exists b; now left|]. intros f (b'&Hf). apply H. exists b'. now right.
Qed.
Definition atom_spelled (xs xc : N -> bool) (a : Atom Formula) : Prop :=
  match a with
  | AVariable s l => (exists c t, s = c :: t /\ xs c = true /\ forallb xc t = true) /\ (forall t, In t l -> forallb xc t = true) /\ firstn 3 (s :: l) <> single (lit "lim")
  | ANumber c l d => digit c /\ Forall digit l /\ Forall digit d
  | AString l => forall s, In (false, s) l -> s <> lit """" /\ s <> lit "\"
  | ACells v w cells => In v [Fraction; RootV; Table] /\ 0 < w /\ cells <> [] /\ length cells mod w = 0
  | _ => True
  end.
Lemma spelled_atom xs xc a k : spelled xs xc (FAtom a k) <-> atom_spelled xs xc a /\ (forall f, in_atom f a -> spelled xs xc f).
Proof.
  destruct a as [s l|c l d|c|l| |b a|v w cells]; cbn [spelled atom_spelled in_atom]; try (split; [intros H; split; [exact H|intros ? []]|intros [H _]; exact H]).
  - split; [intros H; split; [exact I|intros ? <-; exact H]|intros [_ H]; auto].
  - rewrite (fold_cells (spelled xs xc)). tauto.
Qed.
Lemma spelled_prefix xs xc op k s a : spelled xs xc (FPrefix op k s a) <-> (forall f, in_scripts f s -> spelled xs xc f) /\ spelled xs xc a /\
  (op = Lim -> k = 0 -> s = [] -> firstn 3 (written a) <> map Symbol (single (lit "sup")) /\ firstn 3 (written a) <> map Symbol (single (lit "inf"))).
Proof. cbn [spelled]. rewrite (fold_scripts (spelled xs xc)). tauto. Qed.
Lemma spelled_infix xs xc a op k s b : spelled xs xc (FInfix a op k s b) <-> spelled xs xc a /\ (forall f, in_scripts f s -> spelled xs xc f) /\ spelled xs xc b.
Proof. cbn [spelled]. rewrite (fold_scripts (spelled xs xc)). tauto. Qed.
Lemma spelled_postfix xs xc a op k : spelled xs xc (FPostfix a op k) <-> spelled xs xc a /\ (forall f, in_postfix f op -> spelled xs xc f).
Proof.
  cbn [spelled]. destruct op as [| |b0 x|u b0 x]; cbn [in_postfix].
  1,2: (split; [intros [H _]; split; [exact H|intros ? []]|intros [H _]; auto]).
  all: (split; [intros [H H']; split; [exact H|intros ? <-; exact H']|intros [H H']; split; [exact H|apply H'; reflexivity]]).
Qed.
Lemma conventional_atom l r a k : conventional l r (FAtom a k) <-> (forall f, in_atom f a -> conventional 0 0 f).
Proof.
  destruct a as [s t|c t d|c|t| |b a|v w cells]; cbn [conventional in_atom]; try (solve [split; [intros _ ? []|auto]]).
  - split; [intros H ? <-; exact H|auto].
  - apply (fold_cells (conventional 0 0)).
Qed.
Lemma conventional_prefix l r op k s a : conventional l r (FPrefix op k s a) <->
  r <= prefix_level op /\ (forall f, in_scripts f s -> conventional 0 0 f) /\ conventional (S (prefix_level op)) r a.
Proof. cbn [conventional]. rewrite (fold_scripts (conventional 0 0)). tauto. Qed.
Lemma conventional_infix l r a op k s b : conventional l r (FInfix a op k s b) <->
  l <= level op /\ r <= level op /\ (forall f, in_scripts f s -> conventional 0 0 f) /\ conventional l (level op) a /\ conventional (S (level op)) r b.
Proof. cbn [conventional]. rewrite (fold_scripts (conventional 0 0)). tauto. Qed.
Lemma conventional_postfix l r a op k : conventional l r (FPostfix a op k) <-> conventional l 6 a /\ (forall f, in_postfix f op -> conventional 0 0 f).
Proof.
  cbn [conventional]. destruct op as [| |b0 x|u b0 x]; cbn [in_postfix].
  1,2: (split; [intros [H _]; split; [exact H|intros ? []]|intros [H _]; auto]).
  all: (split; [intros [H H']; split; [exact H|intros ? <-; exact H']|intros [H H']; split; [exact H|apply H'; reflexivity]]).
Qed.

(** ** The expression of a formula *)
Definition level_power (n : nat) : nat := match n with 0 => 0 | 1 => 40 | 2 => 50 | 3 => 100 | 4 => 200 | 5 => 400 | _ => 600 end.
Definition infix_op (op : Infix) : OpParser := mkOp (BLeftInfix (level_power (level op))) (TSymbols [[infix_char op]] LOperator) (infix_name op).
Definition prefix_op (op : Prefix) : OpParser := mkOp (BPrefix (level_power (prefix_level op))) (TSymbols (single (prefix_text op)) LOperator) (prefix_name op).
Definition postfix_token (op : Postfix Formula) : TokenParser :=
  match op with PFactorial => TSymbols [[33%N]] LOperator | PCall => TEmptyBrackets [40%N] [41%N] | PApply _ _ => TBrackets [40%N] [41%N] | PScript u _ _ => TContainer (script u) end.
Definition postfix_op (op : Postfix Formula) : OpParser :=
  mkOp (BPostfix match op with PFactorial => 600 | PCall | PApply _ _ => 800 | PScript _ _ _ => 1000 end) (postfix_token op) (postfix_name op).
Fixpoint expr (before p : nat) (f : Formula) : Expr :=
  match f with
  | FAtom _ _ => EAtom (tree before p f)
  | FPrefix op k s a => let v := prefix_value before p op k s in EPrefix (prefix_op op) v (expr 0 (end_of v) a)
  | FInfix a op k s b => let v := infix_value (p + before + width a) op k s in EInfix (expr before p a) (infix_op op) v (expr 0 (end_of v) b)
  | FPostfix a op k => EPostfix (expr before p a) (postfix_op op) (postfix_value (p + before + width a) op k)
  end.
Lemma spaced_start name c p before len after : start_of (spaced name c p before len after) = p.
Proof. unfold spaced, start_of. destruct before; [destruct after|]; cbn; lia. Qed.
Lemma spaced_end name c p before len after : end_of (spaced name c p before len after) = p + before + len + after.
Proof. unfold spaced, end_of. destruct before; [destruct after|]; cbn; lia. Qed.
Lemma scripts_start s : forall n, start_of (scripts_tree s n) = start_of n.
Proof. induction s as [|[[[u b] a] k] s IH]; intros n; [reflexivity|]. cbn [scripts_tree fold_left]. fold (scripts_tree s). rewrite IH. reflexivity. Qed.
Lemma scripts_end s : forall n, end_of (scripts_tree s n) = end_of n + length (written_scripts s).
Proof.
  induction s as [|[[[u b] a] k] s IH]; intros n; [cbn; lia|]. cbn [scripts_tree fold_left written_scripts flat_map]. fold (scripts_tree s) (written_scripts s). rewrite IH.
  cbn [script_tree]. rewrite app_length. cbn [length]. rewrite spaces_length. unfold end_of at 1. cbn [syn_range snd]. lia.
Qed.
Lemma prefix_value_start before p op k s : start_of (prefix_value before p op k s) = p.
Proof. unfold prefix_value. now rewrite scripts_start, spaced_start. Qed.
Lemma prefix_value_end before p op k s : end_of (prefix_value before p op k s) = p + before + length (prefix_text op) + k + length (written_scripts s).
Proof. unfold prefix_value. now rewrite scripts_end, spaced_end. Qed.
Lemma infix_value_start q op k s : start_of (infix_value q op k s) = q.
Proof. unfold infix_value. now rewrite scripts_start, spaced_start. Qed.
Lemma infix_value_end q op k s : end_of (infix_value q op k s) = q + 1 + k + length (written_scripts s).
Proof. unfold infix_value. rewrite scripts_end, spaced_end. lia. Qed.
Lemma postfix_value_start q op k : start_of (postfix_value q op k) = q.
Proof. apply spaced_start. Qed.
Lemma postfix_value_end q op k : end_of (postfix_value q op k) = q + length (postfix_row op) + k.
Proof. unfold postfix_value. rewrite spaced_end. lia. Qed.
Lemma tree_start before p f : start_of (tree before p f) = p.
Proof. destruct f; [rewrite tree_atom; apply spaced_start|reflexivity..]. Qed.
Lemma tree_end before p f : end_of (tree before p f) = p + before + width f.
Proof. destruct f; [rewrite tree_atom, spaced_end, width_atom; lia|reflexivity..]. Qed.
Lemma build_expr f : forall before p, build (expr before p f) = tree before p f.
Proof.
  induction f as [a k _|op k s a _ IHa|a op k s b IHa _ IHb|a op k IHa _] using formula_induction; intros before p; cbn [expr build].
  - reflexivity.
  - rewrite IHa, tree_prefix, prefix_value_start, tree_end, prefix_value_end, width_prefix. cbn [op_name prefix_op]. f_equal. lia.
  - rewrite IHa, IHb, tree_infix. cbv zeta. rewrite tree_start, tree_end, infix_value_end, width_infix. cbn [op_name infix_op]. f_equal. lia.
  - rewrite IHa, tree_postfix, tree_start, postfix_value_end, width_postfix. cbn [op_name postfix_op]. f_equal. lia.
Qed.

(** ** It respects the binding powers *)
Lemma level_power_le n m : n <= m -> level_power n <= level_power m.
Proof. intros H. do 7 (destruct n as [|n]; [do 7 (destruct m as [|m]; [cbn; lia|]); cbn; lia|]). do 7 (destruct m as [|m]; [lia|]). cbn. lia. Qed.
Lemma level_power_lt n m : n < m -> m <= 6 -> level_power n < level_power m.
Proof. intros H H'. do 7 (destruct n as [|n]; [do 7 (destruct m as [|m]; [cbn; lia|]); cbn; lia|]). lia. Qed.
Lemma level_le op : 1 <= level op <= 4.
Proof. destruct op; cbn; lia. Qed.
Lemma prefix_level_le op : 3 <= prefix_level op <= 5.
Proof. destruct op; cbn; lia. Qed.
Lemma level_power_600 n : level_power n <= 600.
Proof. do 7 (destruct n as [|n]; [cbn; lia|]). cbn. lia. Qed.
Lemma edges f : forall l r before p, r <= 6 -> conventional l r f -> (forall s, In s (left_edge (expr before p f)) -> level_power l <= fst s) /\
  (forall s, In s (right_edge (expr before p f)) -> snd s = Strong /\ level_power r <= fst s) /\ (r = 6 -> right_edge (expr before p f) = []).
Proof.
  induction f as [a k _|op k s a _ IHa|a op k s b IHa _ IHb|a op k IHa _] using formula_induction; intros l r before p Hr Hc; cbn [expr left_edge right_edge].
  - split; [intros ? []|]. split; [intros ? []|reflexivity].
  - apply conventional_prefix in Hc as (H1&_&Ha). pose proof (prefix_level_le op). destruct (IHa _ r 0 (end_of (prefix_value before p op k s)) Hr Ha) as (_&E2&_).
    split; [intros ? []|]. split; [|lia]. intros x [<-|Hx]; [|auto]. cbn. split; [reflexivity|]. now apply level_power_le.
  - apply conventional_infix in Hc as (H1&H2&_&Ha&Hb). pose proof (level_le op). destruct (IHa l (level op) before p ltac:(lia) Ha) as (E1&_&_).
    destruct (IHb _ r 0 (end_of (infix_value (p + before + width a) op k s)) Hr Hb) as (_&E2&_). split; [|split; [|lia]].
    + intros x [<-|Hx]; [|auto]. cbn. now apply level_power_le.
    + intros x [<-|Hx]; [|auto]. cbn. split; [reflexivity|]. now apply level_power_le.
  - apply conventional_postfix in Hc as (Ha&_). destruct (IHa l 6 before p ltac:(lia) Ha) as (E1&_&_). split; [|split; [intros ? []|reflexivity]].
    intros x [<-|Hx]; [|auto]. pose proof (level_power_600 l). destruct op; cbn; lia.
Qed.
Lemma expr_respects f : forall l r before p, r <= 6 -> conventional l r f -> respects (expr before p f).
Proof.
  induction f as [a k _|op k s a _ IHa|a op k s b IHa _ IHb|a op k IHa _] using formula_induction; intros l r before p Hr Hc; cbn [expr respects].
  - exact I.
  - apply conventional_prefix in Hc as (H1&_&Ha). pose proof (prefix_level_le op). split; [eapply IHa; eauto|].
    destruct (edges 0 (end_of (prefix_value before p op k s)) Hr Ha) as (E1&_&_). intros x Hx. apply E1 in Hx.
    pose proof (@level_power_lt (prefix_level op) (S (prefix_level op)) ltac:(lia) ltac:(lia)). unfold weaker. cbn. lia.
  - apply conventional_infix in Hc as (H1&H2&_&Ha&Hb). pose proof (level_le op). split; [eapply (IHa l (level op)); auto; lia|]. split; [eapply IHb; eauto|].
    destruct (@edges a l (level op) before p ltac:(lia) Ha) as (_&E1&_). destruct (edges 0 (end_of (infix_value (p + before + width a) op k s)) Hr Hb) as (E2&_&_). split.
    + intros x Hx. apply E1 in Hx. destruct x as [x y]. cbn in *. unfold weaker. cbn. destruct Hx as [-> Hx]. destruct (Nat.eq_dec (level_power (level op)) x); [right; auto|left; lia].
    + intros x Hx. apply E2 in Hx. pose proof (@level_power_lt (level op) (S (level op)) ltac:(lia) ltac:(lia)). unfold weaker. cbn. lia.
  - apply conventional_postfix in Hc as (Ha&_). split; [eapply (IHa l 6); auto; lia|]. destruct (@edges a l 6 before p ltac:(lia) Ha) as (_&_&E). intros x. rewrite E by reflexivity. intros [].
Qed.

(** ** Tokens *)
Definition no_space (l : InputRow) : Prop := match l with Symbol s :: _ => str_eqb s (lit " ") = false | _ => True end.
Definition no_script (l : InputRow) : Prop := match l with Container v _ :: _ => v <> Sub /\ v <> Sup | _ => True end.
(** Can the token begin with this node? *)
Definition begins (g : Grammar) (n : InputNode) (t : TokenParser) : bool :=
  match t, n with
  | TSymbols (s :: _) _, Symbol s' | TBrackets s _, Symbol s' | TEmptyBrackets s _, Symbol s' => str_eqb s' s
  | TContainer v, Container v' _ => variant_eqb v' v
  | TNumber, Symbol s => is_digits s
  | TVariable, Symbol s => is_identifier_start g s
  | TString, Symbol s => str_eqb s (lit """")
  | TSymbols [] _, _ => true
  | _, _ => false
  end.
Lemma begins_none g rec n t pos r : begins g n t = false -> parse_token g rec t (pos, n :: r) = Ok None.
Proof.
  destruct t as [[|s l] ty|v|a b|a b| | |], n as [v' c|s']; cbn [begins parse_token]; intros H; try discriminate; try reflexivity.
  - cbn [just_symbols]. unfold just_symbol. cbn [snd]. now rewrite H.
  - cbn [snd]. now rewrite H.
  - unfold just_symbol. cbn [snd]. now rewrite H.
  - unfold just_symbol. cbn [snd]. now rewrite H.
  - unfold parse_number, repeat_symbols. cbn [snd take_symbols fst]. now rewrite H.
  - unfold parse_variable, select_symbol. cbn [snd]. now rewrite H.
  - unfold parse_string, just_symbol. cbn [snd]. now rewrite H.
Qed.
Lemma str_neqb a b : a <> b -> str_eqb a b = false.
Proof. intros H. destruct (str_eqb a b) eqn:E; [|reflexivity]. apply str_eqb_eq in E. contradiction. Qed.
Lemma str_eqb_refl s : str_eqb s s = true.
Proof. now apply str_eqb_eq. Qed.
Lemma take_all p (l : list str) : (forall s, In s l -> p s = true) -> forall pos rest, match rest with Symbol s :: _ => p s = false | _ => True end ->
  take_symbols p pos (map Symbol l ++ rest) = (l, (pos + length l, rest)).
Proof.
  induction l as [|s l IH]; intros Hl pos rest Hr; cbn [map app take_symbols length].
  - rewrite Nat.add_0_r. destruct rest as [|[v c|s] r]; try reflexivity. cbn [take_symbols]. now rewrite Hr.
  - rewrite Hl by now left. rewrite IH by (auto; intros; apply Hl; now right). now rewrite Nat.add_succ_r.
Qed.
Lemma spaces_symbols k : spaces k = map Symbol (repeat [32%N] k).
Proof. induction k as [|k IH]; [reflexivity|]. cbn [spaces repeat map]. now rewrite <- IH. Qed.
Lemma spaces_read k pos r : no_space r -> exists o, parse_spaces (pos, spaces k ++ r) = Ok (o, (pos + k, r)) /\
  match o with Some n => [n] | None => [] end = blank k pos.
Proof.
  intros Hr. unfold parse_spaces, repeat_symbols. cbn [fst snd]. rewrite spaces_symbols. rewrite take_all.
  - rewrite repeat_length. destruct k as [|k]; [exists None; split; reflexivity|]. cbn [repeat]. eexists. split; [reflexivity|]. reflexivity.
  - intros s Hs. apply repeat_spec in Hs. subst. reflexivity.
  - exact Hr.
Qed.
Lemma new_leaf name range ty l : syntax_node_new name range (Leaf ty l) = Ok (mkSyntax name (Leaf ty l) (fst range) (snd range)).
Proof. reflexivity. Qed.
Lemma new_rows name range gr : syntax_node_new name range (NewRows gr) = Ok (mkSyntax name (NewRows gr) (fst range) (snd range)).
Proof. reflexivity. Qed.
Lemma new_two name p q a b : start_of a = p -> end_of a = start_of b -> end_of b = q ->
  syntax_node_new name (p, q) (Children [a; b]) = Ok (mkSyntax name (Children [a; b]) p q).
Proof.
  unfold start_of, end_of. intros E1 E2 E3. unfold syntax_node_new. cbn [get_combined_range ranges_end]. rewrite E2, Nat.eqb_refl. cbn [assert_ bind fst snd].
  rewrite E1, E3, !Nat.leb_refl. reflexivity.
Qed.
Lemma new_three name p q a b c : start_of a = p -> end_of a = start_of b -> end_of b = start_of c -> end_of c = q ->
  syntax_node_new name (p, q) (Children [a; b; c]) = Ok (mkSyntax name (Children [a; b; c]) p q).
Proof.
  unfold start_of, end_of. intros E1 E2 E3 E4. unfold syntax_node_new. cbn [get_combined_range ranges_end]. rewrite E2, E3, !Nat.eqb_refl. cbn [assert_ bind fst snd].
  rewrite E1, E4, !Nat.leb_refl. reflexivity.
Qed.
Section Rules.
Variable g : Grammar.
Variable rec : Power -> Ending -> Input -> Res (PrattResult * Input).
Lemma whitespaces_read name c p before len after ob oa :
  match ob with Some n => [n] | None => [] end = blank before p -> match oa with Some n => [n] | None => [] end = blank after (p + before + len) ->
  whitespaces_node ob (mkSyntax name c (p + before) (p + before + len)) oa (p, p + before + len + after) = Ok (spaced name c p before len after).
Proof.
  intros H1 H2. unfold spaced, whitespaces_node. destruct before as [|k], after as [|m]; cbn [blank] in *; destruct ob as [b|], oa as [a|]; try discriminate.
  - reflexivity.
  - inv H2. rewrite new_two; [reflexivity|unfold start_of; cbn; lia|reflexivity|reflexivity].
  - inv H1. rewrite new_two; [reflexivity|reflexivity|reflexivity|unfold end_of; cbn; lia].
  - inv H1. inv H2. rewrite new_three; [reflexivity|reflexivity|reflexivity|reflexivity|reflexivity].
Qed.
Lemma rule_none name t before pos l : no_space l -> parse_token g rec t (pos + before, l) = Ok None -> parse_rule g rec name t (pos, spaces before ++ l) = Ok None.
Proof. intros H E. unfold parse_rule. destruct (spaces_read before pos H) as (o&Eo&_). rewrite Eo. cbn [bind]. rewrite E. reflexivity. Qed.
Lemma rule_some name t before pos l c len after r : no_space l -> no_space r ->
  parse_token g rec t (pos + before, l) = Ok (Some (c, (pos + before + len, spaces after ++ r))) ->
  syntax_node_new name (pos + before, pos + before + len) c = Ok (mkSyntax name c (pos + before) (pos + before + len)) ->
  parse_rule g rec name t (pos, spaces before ++ l) = Ok (Some (spaced name c pos before len after, (pos + before + len + after, r))).
Proof.
  intros H H' E En. unfold parse_rule. destruct (spaces_read before pos H) as (o&Eo&Ho). rewrite Eo. cbn [bind]. rewrite E. unfold pbind. cbn [bind].
  unfold span at 1. cbn [fst]. rewrite En. cbn [bind]. destruct (spaces_read after (pos + before + len) H') as (o'&Eo'&Ho'). rewrite Eo'. cbn [bind]. unfold span. cbn [fst].
  rewrite whitespaces_read by auto. reflexivity.
Qed.
Lemma script_none v i : match snd i with Container w _ :: _ => w <> v | _ => True end -> parse_script g rec v i = Ok None.
Proof.
  destruct i as [p l]. cbn [snd]. intros H. unfold parse_script. cbn [parse_token snd]. destruct l as [|[w c|s] l]; try reflexivity.
  destruct (variant_eqb w v) eqn:E; [|reflexivity]. destruct w, v; try discriminate; congruence.
Qed.
Lemma cell_token v w cells nodes pos r : Forall2 (fun c n => parse_row_with rec c = Ok n) cells nodes -> 0 < w -> length cells mod w = 0 ->
  parse_token g rec (TContainer v) (pos, Container v (mkGrid cells w) :: r) = Ok (Some (NewRows (mkGrid nodes w), (S pos, r))).
Proof.
  intros H Hw Hm. cbn [parse_token snd fst]. replace (variant_eqb v v) with true by (destruct v; reflexivity). cbn [gvalues].
  assert (M : map_res (parse_row_with rec) cells = Ok nodes) by (clear -H; induction H as [|c n cells nodes E H IH]; [reflexivity|]; cbn [map_res]; rewrite E; cbn [bind]; rewrite IH; reflexivity).
  assert (L : length nodes = length cells) by (clear -H; induction H; cbn; congruence).
  rewrite M. cbn [bind]. unfold gwidth_of, gsize, from_one_dimensional, udiv, umod. cbn [gvalues gwidth].
  destruct w as [|w]; [lia|]. cbn [Nat.eqb bind fst Nat.ltb Nat.leb assert_]. rewrite L, Hm. reflexivity.
Qed.
Lemma script_read u before a after pos r : no_space r -> parse_row_with rec (row_of before a) = Ok (tree before 0 a) ->
  parse_script g rec (script u) (pos, Container (script u) (mkGrid [row_of before a] 1) :: spaces after ++ r) =
    Ok (Some (spaced operator_name (NewRows (mkGrid [tree before 0 a] 1)) pos 0 1 after, (pos + 1 + after, r))).
Proof.
  intros Hr E. unfold parse_script. erewrite cell_token; [|constructor; [exact E|constructor]|lia|reflexivity]. unfold pbind. cbn [bind].
  unfold span at 1. cbn [fst]. rewrite new_rows. cbn [bind fst snd]. destruct (spaces_read after (S pos) Hr) as (o'&Eo'&Ho'). rewrite Eo'. cbn [bind]. unfold span. cbn [fst].
  replace (S pos) with (pos + 0 + 1) in * by lia. pose proof (@whitespaces_read operator_rule_name (NewRows (mkGrid [tree before 0 a] 1)) pos 0 1 after None o' eq_refl Ho') as W.
  rewrite Nat.add_0_r in *. rewrite W. reflexivity.
Qed.
Lemma scripts_none k node i : no_script (snd i) -> parse_scripts g rec k node i = Ok (node, i).
Proof.
  destruct k as [|k]; [reflexivity|]. intros H. cbn [parse_scripts]. rewrite !script_none; [reflexivity| |]; destruct (snd i) as [|[v c|s] l]; cbn in *; tauto.
Qed.
Lemma scripts_no_space s r : no_space r -> no_space (written_scripts s ++ r).
Proof. destruct s as [|[[[u b] a] k] s]; [exact (fun H => H)|]. intros _. exact I. Qed.
Lemma scripts_read s : forall node fuel pos r, (forall u b a k, In (u, b, a, k) s -> parse_row_with rec (row_of b a) = Ok (tree b 0 a)) ->
  no_space r -> no_script r -> length (written_scripts s) <= fuel -> end_of node = pos -> start_of node <= pos ->
  parse_scripts g rec fuel node (pos, written_scripts s ++ r) = Ok (scripts_tree s node, (pos + length (written_scripts s), r)).
Proof.
  induction s as [|[[[u b] a] k] s IH]; intros node fuel pos r Hs Hr Hr' Hf He Hl.
  - cbn [written_scripts flat_map app length scripts_tree fold_left]. rewrite Nat.add_0_r. now apply scripts_none.
  - cbn [written_scripts flat_map app scripts_tree fold_left] in *. fold (written_scripts s) in *. fold (scripts_tree s). cbn [length] in *. rewrite app_length, spaces_length in *.
    destruct fuel as [|fuel]; [lia|]. rewrite <- app_assoc. pose proof (@script_read u b a k pos (written_scripts s ++ r) (scripts_no_space s Hr) (Hs _ _ _ _ (or_introl eq_refl))) as Sr.
    assert (B : forall name, build_postfix name (spaced operator_name (NewRows (mkGrid [tree b 0 a] 1)) pos 0 1 k) node =
      Ok (mkSyntax name (Children [node; spaced operator_name (NewRows (mkGrid [tree b 0 a] 1)) pos 0 1 k]) (start_of node) (pos + 1 + k))).
    { intros name. unfold build_postfix. pose proof (spaced_start operator_name (NewRows (mkGrid [tree b 0 a] 1)) pos 0 1 k) as S1.
      pose proof (spaced_end operator_name (NewRows (mkGrid [tree b 0 a] 1)) pos 0 1 k) as S2. unfold combine_ranges. unfold start_of, end_of in *. rewrite S1, S2, He.
      replace (Nat.min (fst (syn_range node)) pos) with (fst (syn_range node)) by lia. replace (Nat.max pos (pos + 0 + 1 + k)) with (pos + 1 + k) by lia.
      apply new_two; unfold start_of, end_of; try reflexivity; rewrite ?S1, ?S2, ?He; lia. }
    assert (Rest : forall name, parse_scripts g rec fuel (mkSyntax name (Children [node; spaced operator_name (NewRows (mkGrid [tree b 0 a] 1)) pos 0 1 k]) (start_of node) (pos + 1 + k))
        (pos + 1 + k, written_scripts s ++ r) =
      Ok (scripts_tree s (mkSyntax name (Children [node; spaced operator_name (NewRows (mkGrid [tree b 0 a] 1)) pos 0 1 k]) (start_of node) (pos + 1 + k)), (pos + (S (k + length (written_scripts s))), r))).
    { intros name. rewrite IH; [|intros; eapply Hs; right; eauto|auto|auto|lia|reflexivity|change (start_of node <= pos + 1 + k); lia]. do 3 f_equal. lia. }
    cbn [parse_scripts]. cbn [script_tree]. rewrite He. destruct u; cbn [script] in *.
    + rewrite script_none by discriminate. cbn [bind]. rewrite Sr. cbn [bind]. rewrite B. cbn [bind]. apply Rest.
    + rewrite Sr. cbn [bind]. rewrite B. cbn [bind]. apply Rest.
Qed.
Lemma op_none op before pos l : no_space l -> parse_token g rec (op_token op) (pos + before, l) = Ok None -> parse_op g rec op (pos, spaces before ++ l) = Ok None.
Proof. intros H E. unfold parse_op. rewrite (rule_none _ H E). destruct (op_power op); reflexivity. Qed.
Lemma op_scripts op before pos l c len after s r : match op_power op with BPostfix _ => False | _ => True end -> no_space l -> no_space r -> no_script r ->
  parse_token g rec (op_token op) (pos + before, l) = Ok (Some (c, (pos + before + len, spaces after ++ written_scripts s ++ r))) ->
  syntax_node_new operator_name (pos + before, pos + before + len) c = Ok (mkSyntax operator_name c (pos + before) (pos + before + len)) ->
  (forall u b a k, In (u, b, a, k) s -> parse_row_with rec (row_of b a) = Ok (tree b 0 a)) ->
  parse_op g rec op (pos, spaces before ++ l) = Ok (Some (scripts_tree s (spaced operator_name c pos before len after), (pos + before + len + after + length (written_scripts s), r))).
Proof.
  intros Hop H Hr Hr' E En Hs. unfold parse_op. pose proof (rule_some H (scripts_no_space s Hr) E En) as Er. change operator_name with operator_rule_name in *.
  rewrite Er. destruct (op_power op); try destruct Hop.
  all: unfold pbind; cbn [bind snd]; rewrite scripts_read; [reflexivity|exact Hs|exact Hr|exact Hr'|rewrite app_length; lia|apply spaced_end|rewrite spaced_start; lia].
Qed.
Lemma op_postfix op x pos l c len after r : op_power op = BPostfix x -> no_space l -> no_space r ->
  parse_token g rec (op_token op) (pos, l) = Ok (Some (c, (pos + len, spaces after ++ r))) ->
  syntax_node_new operator_name (pos, pos + len) c = Ok (mkSyntax operator_name c pos (pos + len)) ->
  parse_op g rec op (pos, l) = Ok (Some (spaced operator_name c pos 0 len after, (pos + len + after, r))).
Proof.
  intros Hop H Hr E En. unfold parse_op. rewrite Hop. pose proof (@rule_some operator_name (op_token op) 0 pos l c len after r H Hr) as R. rewrite Nat.add_0_r in R. exact (R E En).
Qed.
Lemma iter_none before pos l ops : no_space l -> (forall op, In op ops -> parse_token g rec (op_token op) (pos + before, l) = Ok None) ->
  parse_iter g rec ops (pos, spaces before ++ l) = Ok None.
Proof.
  intros H. induction ops as [|op ops IH]; [reflexivity|]. cbn [parse_iter]. intros Ha. rewrite op_none; [cbn [bind]; apply IH; intros; apply Ha; now right|exact H|apply Ha; now left].
Qed.
Lemma iter_skip before pos l a op b v i' : no_space l -> (forall op, In op a -> parse_token g rec (op_token op) (pos + before, l) = Ok None) ->
  parse_op g rec op (pos, spaces before ++ l) = Ok (Some (v, i')) -> parse_iter g rec (a ++ op :: b) (pos, spaces before ++ l) = Ok (Some ((v, op), i')).
Proof.
  intros H Ha Ho. induction a as [|o a IH]; cbn [app parse_iter]; [now rewrite Ho|].
  rewrite op_none; [cbn [bind]; apply IH; intros; apply Ha; now right|exact H|apply Ha; now left].
Qed.
Lemma choice_skip before pos l a name t b x : no_space l -> (forall name t, In (name, t) a -> parse_token g rec t (pos + before, l) = Ok None) ->
  parse_rule g rec name t (pos, spaces before ++ l) = Ok (Some x) -> parse_choice g rec (a ++ (name, t) :: b) (pos, spaces before ++ l) = Ok (Some x).
Proof.
  intros H Ha Ho. induction a as [|[m u] a IH]; cbn [app parse_choice]; [now rewrite Ho|].
  rewrite rule_none; [cbn [bind]; apply IH; intros; eapply Ha; right; eauto|exact H|eapply Ha; left; reflexivity].
Qed.
Lemma choice_none before pos l a : no_space l -> (forall name t, In (name, t) a -> parse_token g rec t (pos + before, l) = Ok None) ->
  parse_choice g rec a (pos, spaces before ++ l) = Ok None.
Proof.
  intros H Ha. induction a as [|[m u] a IH]; cbn [app parse_choice]; [reflexivity|].
  rewrite rule_none; [cbn [bind]; apply IH; intros; eapply Ha; right; eauto|exact H|eapply Ha; left; reflexivity].
Qed.
Lemma ops_begin ops n pos r : forallb (fun op => negb (begins g n (op_token op))) ops = true -> forall op, In op ops -> parse_token g rec (op_token op) (pos, n :: r) = Ok None.
Proof. intros H op Ho. rewrite forallb_forall in H. apply H in Ho. apply negb_true_iff in Ho. now apply begins_none. Qed.
Lemma rules_begin (rules : list (PathIdentifier * TokenParser)) n pos r : forallb (fun '(_, t) => negb (begins g n t)) rules = true ->
  forall name t, In (name, t) rules -> parse_token g rec t (pos, n :: r) = Ok None.
Proof. intros H name t Ho. rewrite forallb_forall in H. apply H in Ho. apply negb_true_iff in Ho. now apply begins_none. Qed.
(** Texts *)
Lemma just_symbols_read l : forall pos r, just_symbols l (pos, map Symbol l ++ r) = Some (concat l, (pos + length l, r)).
Proof.
  induction l as [|s l IH]; intros pos r; cbn [just_symbols map app concat length]; [now rewrite Nat.add_0_r|]. unfold just_symbol. cbn [snd fst]. rewrite str_eqb_refl, IH.
  now rewrite Nat.add_succ_r.
Qed.
Lemma just_symbols_none l : forall pos x, firstn (length l) x <> map Symbol l -> just_symbols l (pos, x) = None.
Proof.
  induction l as [|s l IH]; intros pos x H; [cbn in H; congruence|]. cbn [just_symbols]. unfold just_symbol. cbn [snd fst]. destruct x as [|[v c|t] x]; try reflexivity.
  destruct (str_eqb t s) eqn:E; [|reflexivity]. apply str_eqb_eq in E. subst. rewrite IH; [reflexivity|]. cbn in H. congruence.
Qed.
Lemma concat_single l : concat (single l) = l.
Proof. induction l as [|c l IH]; [reflexivity|]. change (c :: concat (single l) = c :: l). now rewrite IH. Qed.
Lemma text_token l ty pos r : parse_token g rec (TSymbols (single l) ty) (pos, map Symbol (single l) ++ r) = Ok (Some (Leaf ty [l], (pos + length l, r))).
Proof. cbn [parse_token]. rewrite just_symbols_read, concat_single. unfold single. rewrite map_length. reflexivity. Qed.
Lemma text_none l ty pos x : firstn (length l) x <> map Symbol (single l) -> parse_token g rec (TSymbols (single l) ty) (pos, x) = Ok None.
Proof. intros H. cbn [parse_token]. rewrite just_symbols_none; [reflexivity|]. unfold single at 1. now rewrite map_length. Qed.
End Rules.
(** ** The next token *)
Section Next.
Variable g : Grammar.
Hypothesis Htok : no_empty_tokens g.
Hypothesis Hcont : all_containers g.
Variables (row : InputRow) (pos : nat).
Hypotheses (Hwf : wf_row row) (Hp : pos <= length row).
Local Notation i := (inp row pos).
Lemma next_prefix e v op i' : prefix_at g i = Ok (Some ((v, op), i')) -> next g e Operand i = Ok (Some (TkPrefix op v, (Operand, i'))).
Proof.
  intros E. destruct (atom_at_ok Htok Hcont Hwf Hp (Nat.le_refl _)) as (o2&_&E2&_). destruct (infix_at_ok Htok Hcont Hwf Hp (Nat.le_refl _)) as (o3&_&E3&_).
  destruct (postfix_at_ok Htok Hcont Hwf Hp (Nat.le_refl _)) as (o4&_&E4&_). unfold next. rewrite E, E2, E3, E4. reflexivity.
Qed.
Lemma next_atom e v i' : prefix_at g i = Ok None -> atom_at g i = Ok (Some (v, i')) -> next g e Operand i = Ok (Some (TkAtom v, (Operator, i'))).
Proof.
  intros E E2. destruct (infix_at_ok Htok Hcont Hwf Hp (Nat.le_refl _)) as (o3&_&E3&_).
  destruct (postfix_at_ok Htok Hcont Hwf Hp (Nat.le_refl _)) as (o4&_&E4&_). unfold next. rewrite E, E2, E3, E4. reflexivity.
Qed.
Lemma next_infix e v op i' : infix_at g i = Ok (Some ((v, op), i')) -> next g e Operator i = Ok (Some (TkInfix op v, (Operand, i'))).
Proof.
  intros E. destruct (atom_at_ok Htok Hcont Hwf Hp (Nat.le_refl _)) as (o2&_&E2&_). destruct (prefix_at_ok Htok Hcont Hwf Hp (Nat.le_refl _)) as (o3&_&E3&_).
  destruct (postfix_at_ok Htok Hcont Hwf Hp (Nat.le_refl _)) as (o4&_&E4&_). unfold next. rewrite E, E2, E3, E4. reflexivity.
Qed.
Lemma next_postfix e v op i' : infix_at g i = Ok None -> postfix_at g i = Ok (Some ((v, op), i')) -> next g e Operator i = Ok (Some (TkPostfix op v, (Operator, i'))).
Proof.
  intros E E4. destruct (atom_at_ok Htok Hcont Hwf Hp (Nat.le_refl _)) as (o2&_&E2&_). destruct (prefix_at_ok Htok Hcont Hwf Hp (Nat.le_refl _)) as (o3&_&E3&_).
  unfold next. rewrite E, E2, E3, E4. reflexivity.
Qed.
End Next.

(** ** Brackets *)
Section Inner.
Variable g : Grammar.
Hypothesis Htok : no_empty_tokens g.
Hypothesis Hcont : all_containers g.
Lemma lexes_det_end e st l i l' i' : lexes g e st l (Operator, i) -> next g e Operator i = Ok None ->
  lexes g e st l' (Operator, i') -> next g e Operator i' = Ok None -> l' = l /\ i' = i.
Proof.
  intros L. revert l'. remember (Operator, i) as st1. induction L as [st|st k st1 l st2 Hn L IH]; intros l' E L' E'.
  - subst. pose proof (next_none_not_some (st := Operator) (i := i) E L') as ->. inv L'. auto.
  - inv L'.
    + cbn [fst snd] in Hn. congruence.
    + rewrite Hn in H. inv H. destruct (IH eq_refl _ E H0 E') as [-> ->]. auto.
Qed.
Lemma nth_error_skip A (l : list A) k : forall start, nth_error (skipn start l) k = nth_error l (start + k).
Proof. induction l as [|x l IH]; intros [|start]; cbn; auto; destruct k; reflexivity. Qed.
Lemma size_skipn_le row pos pos' : pos <= pos' <= length row -> row_size (skipn pos' row) <= row_size (skipn pos row).
Proof. intros H. destruct (Nat.eq_dec pos pos') as [->|]; [lia|]. pose proof (@size_skipn row pos pos'). lia. Qed.
Lemma brackets_read row start pos a b t p : wf_row row -> start <= pos -> nth_error row pos = Some (Symbol a) -> nth_error row p = Some (Symbol b) -> respects t ->
  lexes g (EndSymbol b) (Operand, inp row (S pos)) (flatten t) (Operator, inp row p) -> next g (EndSymbol b) Operator (inp row p) = Ok None ->
  parse_token g (token_parser g (inp row start)) (TBrackets a b) (inp row pos) = Ok (Some (Children [bracket_leaf a pos; build t; bracket_leaf b p], inp row (S p))).
Proof.
  intros Hwf Hst Ha Hb Rt L En. assert (Hlt : S pos <= length row) by (apply nth_error_Some; congruence).
  assert (J : forall s k, nth_error row k = Some (Symbol s) -> just_symbol s (inp row k) = Some (s, inp row (S k))).
  { intros s k Hk. assert (Hk' : k < length row) by (apply nth_error_Some; congruence). destruct (skipn_lt Hk') as [n Hn].
    destruct (skipn_cons_S Hn) as (_&_&Hn'). rewrite Hk in Hn'. inv Hn'. unfold just_symbol, inp. rewrite Hn. cbn [snd fst]. now rewrite (proj2 (str_eqb_eq s s) eq_refl). }
  assert (Hs : row_size (skipn (S pos) row) < row_size (skipn start row)) by (pose proof (@size_skipn row start (S pos)); lia).
  cbn [parse_token]. rewrite (J _ _ Ha). unfold token_parser. cbn [inp snd]. change (S pos, skipn (S pos) row) with (inp row (S pos)).
  destruct (pratt_parse_ok Htok Hcont (Nat.le_refl (row_size (skipn start row))) (0, Weak) (EndSymbol b) Hwf Hlt Hs) as (en&m&p'&E&_&Hp'&C&_&Hm&_).
  rewrite E. cbn [bind]. rewrite (Hm eq_refl) in *.
  destruct (@pratt_parse_sound g Htok Hcont _ row (S pos) _ _ _ _ _ Hwf Hlt Hs E) as (t'&L'&B&Rt'&_&St). cbn [stopped] in St.
  destruct (lexes_det_end L En L' St) as [El Ei]. apply respects_unique in El; auto. subst t'. inv Ei.
  destruct (assemble_build B) as [Em _]; [eapply (lexes_forwards Htok Hcont Hwf L); exists (S pos); auto|]. subst m.
  rewrite (J _ _ Hb). reflexivity.
Qed.
Lemma inner_read row start v gr c n : wf_row row -> start <= length row -> In (Container v gr) (skipn start row) -> In c (gvalues gr) -> parse g c = Ok n ->
  parse_row_with (token_parser g (inp row start)) c = Ok n.
Proof.
  intros Hwf Hst Hin Hc E. apply In_nth_error in Hin as (k&Hk). rewrite nth_error_skip in Hk.
  assert (Hkl : start + k < length row) by (apply nth_error_Some; congruence).
  pose proof (size_cell Hk Hc) as Hs. pose proof (@size_skipn_le row start (start + k) ltac:(lia)).
  pose proof (wf_row_nth Hwf Hk) as Hcell. apply wf_container_inv in Hcell.
  unfold token_parser. cbn [inp snd]. rewrite <- E. apply (parse_fuel Htok Hcont); [apply Hcell, Hc|lia].
Qed.
End Inner.

(** ** Formulas *)
Definition stops : list N := [61; 62; 60; 8805; 8804; 44; 43; 45; 8743; 8744; 8660; 10233; 42; 47; 33; 40; 41; 32]%N.
(** What can follow an operand *)
Definition ends (l : InputRow) : Prop := match l with Symbol s :: _ => exists c, s = [c] /\ In c stops | _ => True end.
Definition head_good (n : InputNode) : Prop := match n with Container v _ => v <> Sub /\ v <> Sup | Symbol s => s <> [32%N] /\ s <> [41%N] end.
Lemma inp_cons row pos n r : skipn pos row = n :: r -> inp row pos = (pos, n :: r) /\ inp row (S pos) = (S pos, r) /\ pos < length row /\ nth_error row pos = Some n.
Proof. intros H. destruct (skipn_cons_S H) as (E&Hl&Hn). unfold inp. rewrite H, E. auto. Qed.
Lemma head_no_space n r : head_good n -> no_space (n :: r).
Proof. destruct n as [v c|s]; [reflexivity|]. intros [H _]. now apply str_neqb. Qed.
Lemma head_no_script n r : head_good n -> no_script (n :: r).
Proof. destruct n as [v c|s]; [|reflexivity]. exact (fun H => H). Qed.
Lemma stops_ne (Q : N -> Prop) : Forall Q stops -> forall c, In c stops -> Q c.
Proof. intros H c Hc. rewrite Forall_forall in H. auto. Qed.
Lemma ends_spaces k r : ends r -> ends (spaces k ++ r).
Proof. destruct k as [|k]; [exact (fun H => H)|]. intros _. exists 32%N. split; [reflexivity|cbn; tauto]. Qed.
Lemma ends_symbol (p : str -> bool) rest : Forall (fun c => p [c] = false) stops -> ends rest -> match rest with Symbol s :: _ => p s = false | _ => True end.
Proof. intros H. destruct rest as [|[v c|s] r]; auto. intros (c&->&Hc). revert c Hc. now apply stops_ne. Qed.
(** A text of letters is not completed by what follows. *)
Lemma firstn_ends (t : list N) w rest : Forall (fun c => ~ In c stops) t -> firstn (length t) w <> map Symbol (single t) -> ends rest -> firstn (length t) (w ++ rest) <> map Symbol (single t).
Proof.
  revert w. induction t as [|c t IH]; intros w Ht H Hr E; [now apply H|]. inv Ht. destruct w as [|n w]; cbn [length firstn app single map] in *.
  - destruct rest as [|[v x|s] rest]; try discriminate E. inv E. destruct Hr as (d&Hd&Hin). inv Hd. contradiction.
  - inv E. apply (IH w); auto. intros E. apply H. now rewrite E.
Qed.
Lemma find_split A (p : A -> bool) l x : List.find p l = Some x -> exists a b, l = a ++ x :: b /\ forallb (fun y => negb (p y)) a = true.
Proof.
  induction l as [|y l IH]; [discriminate|]. cbn [List.find]. destruct (p y) eqn:E; intros H.
  - inv H. exists [], l. auto.
  - destruct (IH H) as (a&b&->&Ha). exists (y :: a), b. cbn. rewrite E. auto.
Qed.
Section Formulas.
Variables xs xc : N -> bool.
Hypothesis HC : classes_ok xs xc.
Local Notation g := (default_grammar xs xc).
Local Notation Htok := (@default_no_empty_tokens xs xc).
Local Notation Hcont := (@default_all_containers xs xc).

Lemma start_not_sign c : xs c = true -> ~ In c signs.
Proof. intros H Hc. apply HC in Hc as [Hc _]. congruence. Qed.
Lemma start_ne c t d : xs c = true -> In d signs -> c :: t <> [d].
Proof. intros H Hd E. inv E. now apply start_not_sign in H. Qed.
Lemma digit_ne c d : digit c -> ~ digit d -> [c] <> [d].
Proof. intros H Hd E. inv E. contradiction. Qed.
Lemma atom_head a : atom_spelled xs xc a -> exists n r, atom_row a = n :: r /\ head_good n.
Proof.
  destruct a as [s l|c l d|c|l| |b a|v w cells]; cbn [atom_spelled atom_row]; intros Hs.
  - destruct Hs as ((c&t&->&Hc&Ht)&_). exists (Symbol (c :: t)), (map Symbol l). split; [reflexivity|]. split; apply start_ne; auto; cbn; tauto.
  - destruct Hs as (Hc&_). unfold number_symbols. do 2 eexists. split; [reflexivity|]. split; apply digit_ne; auto; unfold digit; lia.
  - do 2 eexists. split; [reflexivity|]. destruct c; split; discriminate.
  - do 2 eexists. split; [reflexivity|]. split; discriminate.
  - do 2 eexists. split; [reflexivity|]. split; discriminate.
  - do 2 eexists. split; [reflexivity|]. split; discriminate.
  - destruct Hs as (Hv&_). do 2 eexists. split; [reflexivity|]. cbn in Hv. destruct Hv as [<-|[<-|[<-|[]]]]; split; discriminate.
Qed.
Lemma written_head f : spelled xs xc f -> exists n r, written f = n :: r /\ head_good n.
Proof.
  induction f as [a k _|op k s a _ IHa|a op k s b IHa _ IHb|a op k IHa _] using formula_induction; intros Hs.
  - apply spelled_atom in Hs as [Hs _]. destruct (atom_head Hs) as (n&r&E&H). rewrite written_atom, E. do 2 eexists. split; [reflexivity|exact H].
  - rewrite written_prefix. destruct op; do 2 eexists; (split; [reflexivity|]); split; discriminate.
  - apply spelled_infix in Hs as (Hs&_). rewrite written_infix. destruct (IHa Hs) as (n&r&->&H). do 2 eexists. split; [reflexivity|exact H].
  - apply spelled_postfix in Hs as (Hs&_). rewrite written_postfix. destruct (IHa Hs) as (n&r&->&H). do 2 eexists. split; [reflexivity|exact H].
Qed.
Lemma written_no_space f r : spelled xs xc f -> no_space (written f ++ r).
Proof. intros H. destruct (written_head H) as (n&t&->&Hn). now apply head_no_space. Qed.
Lemma written_no_script f r : spelled xs xc f -> no_script (written f ++ r).
Proof. intros H. destruct (written_head H) as (n&t&->&Hn). now apply head_no_script. Qed.
Lemma width_pos f : spelled xs xc f -> 0 < width f.
Proof. intros H. destruct (written_head H) as (n&r&E&_). unfold width. rewrite E. cbn. lia. Qed.

(** Operators. [rec] is the parser for what is inside. *)
Section Tokens.
Variable rec : Power -> Ending -> Input -> Res (PrattResult * Input).
Definition inner_ok (s : Scripts Formula) : Prop := forall u b a k, In (u, b, a, k) s -> parse_row_with rec (row_of b a) = Ok (tree b 0 a).
Lemma infix_read pos op k s r : inner_ok s -> no_space r -> no_script r ->
  parse_infix g rec (pos, sign (infix_char op) :: spaces k ++ written_scripts s ++ r) =
    Ok (Some ((infix_value pos op k s, infix_op op), (end_of (infix_value pos op k s), r))).
Proof.
  intros Hs Hr Hr'. unfold parse_infix. rewrite infix_value_end.
  destruct (@find_split _ (fun o => begins g (sign (infix_char op)) (op_token o)) (infix_ops g) (infix_op op)) as (a&b&->&Ha); [destruct op; reflexivity|].
  pose proof (@op_scripts g rec (infix_op op) 0 pos (sign (infix_char op) :: spaces k ++ written_scripts s ++ r) (Leaf LOperator [[infix_char op]]) 1 k s r I) as O.
  rewrite !Nat.add_0_r in O. apply (@iter_skip g rec 0).
  - destruct op; reflexivity.
  - rewrite Nat.add_0_r. now apply ops_begin.
  - apply O; auto; [destruct op; reflexivity|]. exact (@text_token g rec [infix_char op] LOperator pos _).
Qed.
Lemma infix_none pos n l : no_space (n :: l) -> forallb (fun o => negb (begins g n (op_token o))) (infix_ops g) = true -> parse_infix g rec (pos, n :: l) = Ok None.
Proof. intros H Hb. apply (@iter_none g rec 0); [exact H|]. now apply ops_begin. Qed.
Lemma prefix_ops_eq : prefix_ops g = map prefix_op [Integral; Sum; LimInf; LimSup; Lim; Negative; Positive].
Proof. reflexivity. Qed.
Lemma prefix_read before pos op k s r : inner_ok s -> no_space r -> no_script r ->
  (op = Lim -> k = 0 -> s = [] -> firstn 3 r <> map Symbol (single (lit "sup")) /\ firstn 3 r <> map Symbol (single (lit "inf"))) ->
  parse_prefix g rec (pos, spaces before ++ map Symbol (single (prefix_text op)) ++ spaces k ++ written_scripts s ++ r) =
    Ok (Some ((prefix_value before pos op k s, prefix_op op), (end_of (prefix_value before pos op k s), r))).
Proof.
  intros Hs Hr Hr' Hl. unfold parse_prefix. rewrite prefix_value_end, prefix_ops_eq.
  pose proof (@op_scripts g rec (prefix_op op) before pos (map Symbol (single (prefix_text op)) ++ spaces k ++ written_scripts s ++ r) (Leaf LOperator [prefix_text op]) (length (prefix_text op)) k s r I) as O.
  assert (Sp : no_space (map Symbol (single (prefix_text op)) ++ spaces k ++ written_scripts s ++ r)) by (destruct op; reflexivity).
  specialize (O Sp Hr Hr' (@text_token g rec (prefix_text op) LOperator _ _) eq_refl Hs).
  assert (Lm : forall t, length t = 3 -> t = lit "sup" \/ t = lit "inf" -> op = Lim -> firstn 6 (map Symbol (single (prefix_text op)) ++ spaces k ++ written_scripts s ++ r) <> map Symbol (single (lit "lim" ++ t))).
  { intros t Ht Ht' ->. cbn [prefix_text lit]. change (map Symbol (single (lit "lim" ++ t))) with (map Symbol (single (lit "lim")) ++ map Symbol (map (fun c => [c]) t)).
    change (firstn 6 (map Symbol (single (lit "lim")) ++ spaces k ++ written_scripts s ++ r)) with (map Symbol (single (lit "lim")) ++ firstn 3 (spaces k ++ written_scripts s ++ r)).
    intros E. apply app_inv_head in E. destruct k as [|k].
    - destruct s as [|[[[u b] a] j] s].
      + destruct (Hl eq_refl eq_refl eq_refl) as [H1 H2]. destruct Ht' as [->| ->]; [exact (H1 E)|exact (H2 E)].
      + destruct Ht' as [->| ->]; discriminate E.
    - destruct Ht' as [->| ->]; discriminate E. }
  destruct op.
  - apply (@iter_skip g rec before pos _ (map prefix_op [Integral; Sum; LimInf; LimSup; Lim; Negative]) (prefix_op Positive) []); auto. apply ops_begin. reflexivity.
  - apply (@iter_skip g rec before pos _ (map prefix_op [Integral; Sum; LimInf; LimSup; Lim]) (prefix_op Negative)); auto. apply ops_begin. reflexivity.
  - apply (@iter_skip g rec before pos _ (map prefix_op [Integral]) (prefix_op Sum)); auto. apply ops_begin. reflexivity.
  - apply (@iter_skip g rec before pos _ [] (prefix_op Integral)); auto. intros ? [].
  - apply (@iter_skip g rec before pos _ (map prefix_op [Integral; Sum; LimInf; LimSup]) (prefix_op Lim)); auto. intros o [<-|[<-|[<-|[<-|[]]]]].
    + now apply begins_none.
    + now apply begins_none.
    + apply (@text_none g rec (lit "liminf")). apply (Lm (lit "inf")); auto.
    + apply (@text_none g rec (lit "limsup")). apply (Lm (lit "sup")); auto.
  - apply (@iter_skip g rec before pos _ (map prefix_op [Integral; Sum; LimInf]) (prefix_op LimSup)); auto. intros o [<-|[<-|[<-|[]]]].
    + now apply begins_none.
    + now apply begins_none.
    + apply (@text_none g rec (lit "liminf")). intros E. discriminate E.
  - apply (@iter_skip g rec before pos _ (map prefix_op [Integral; Sum]) (prefix_op LimInf)); auto. apply ops_begin. reflexivity.
Qed.
Lemma prefix_none before pos n l : no_space (n :: l) -> (forall c, In c [43; 45; 8721; 8747]%N -> n <> sign c) -> firstn 3 (n :: l) <> map Symbol (single (lit "lim")) ->
  parse_prefix g rec (pos, spaces before ++ n :: l) = Ok None.
Proof.
  intros Hs Hc Hl. apply iter_none; [exact Hs|]. rewrite prefix_ops_eq.
  assert (L : forall t, firstn (length (lit "lim" ++ t)) (n :: l) <> map Symbol (single (lit "lim" ++ t))).
  { intros t E. apply Hl. rewrite app_length in E. unfold single in E. rewrite !map_app in E. apply (f_equal (firstn 3)) in E. rewrite firstn_firstn in E.
    replace (Nat.min 3 (length (lit "lim") + length t)) with 3 in E by (cbn; lia). exact E. }
  assert (B : forall c, In c [43; 45; 8721; 8747]%N -> begins g n (TSymbols [[c]] LOperator) = false).
  { intros c Hin. destruct n as [v x|s]; [reflexivity|]. cbn [begins]. apply str_neqb. intros ->. now apply (Hc c). }
  intros o Ho. cbn [map In] in Ho. destruct Ho as [<-|[<-|[<-|[<-|[<-|[<-|[<-|[]]]]]]]].
  - apply begins_none, (B 8747%N). cbn; tauto.
  - apply begins_none, (B 8721%N). cbn; tauto.
  - exact (@text_none g rec (lit "liminf") _ _ _ (L (lit "inf"))).
  - exact (@text_none g rec (lit "limsup") _ _ _ (L (lit "sup"))).
  - exact (@text_none g rec (lit "lim") _ _ _ (L [])).
  - apply begins_none, (B 45%N). cbn; tauto.
  - apply begins_none, (B 43%N). cbn; tauto.
Qed.

(** Operands *)
Lemma stops_signs c : In c stops -> In c signs.
Proof.
  intros H. assert (B : forallb (fun c => existsb (N.eqb c) signs) stops = true) by reflexivity. rewrite forallb_forall in B. apply B in H.
  apply existsb_exists in H as (d&Hd&E). apply N.eqb_eq in E. now subst.
Qed.
Lemma digit_is c : digit c -> is_digits [c] = true.
Proof. intros [H1 H2]. cbn. apply N.leb_le in H1. apply N.leb_le in H2. now rewrite H1, H2. Qed.
Lemma digits_are l : Forall digit l -> forall s, In s (map (fun c => [c]) l) -> is_digits s = true.
Proof. intros H s Hs. apply in_map_iff in Hs as (c&<-&Hc). rewrite Forall_forall in H. now apply digit_is, H. Qed.
Lemma number_read pos c l d rest : digit c -> Forall digit l -> Forall digit d -> ends rest ->
  parse_number (pos, map Symbol (number_symbols c l d) ++ rest) = Some (number_symbols c l d, (pos + length (number_symbols c l d), rest)).
Proof.
  intros Hc Hl Hd Hr. assert (Hcl : Forall digit (c :: l)) by now constructor. unfold parse_number, number_symbols, repeat_symbols, single. cbn [fst snd].
  assert (Rd : match rest with Symbol s :: _ => is_digits s = false | _ => True end) by (apply ends_symbol; [repeat constructor|exact Hr]).
  destruct d as [|x d].
  - assert (J : forall p, just_symbol (lit ".") (p, rest) = None).
    { intros p. unfold just_symbol. cbn [snd]. assert (Rp : match rest with Symbol s :: _ => str_eqb s (lit ".") = false | _ => True end) by (apply (@ends_symbol (fun s => str_eqb s (lit "."))); [repeat constructor|exact Hr]).
      destruct rest as [|[v y|s'] rest']; try reflexivity. now rewrite Rp. }
    rewrite app_nil_r. rewrite take_all; [|now apply digits_are|exact Rd]. cbn [map]. rewrite J. reflexivity.
  - rewrite map_app, <- app_assoc. rewrite take_all; [|now apply digits_are|reflexivity]. cbn [map]. unfold just_symbol. cbn [snd app fst]. change (str_eqb [46%N] (lit ".")) with true.
    cbv iota. pose proof (fun p => @take_all is_digits (map (fun c => [c]) (x :: d)) (digits_are Hd) p rest Rd) as T. cbn [map app] in T. cbn [fst snd app]. rewrite T.
    f_equal. f_equal. f_equal. cbn [length]. rewrite app_length. cbn [length]. rewrite !map_length. lia.
Qed.
Lemma string_read l : (forall s, In (false, s) l -> s <> lit """" /\ s <> lit "\") -> forall pos x,
  parse_string (pos, map Symbol (string_symbols l) ++ x) = Some (string_symbols l, (pos + length (string_symbols l), x)).
Proof.
  intros Hl pos x. unfold parse_string, string_symbols. cbn [map app]. unfold just_symbol at 1. cbn [snd]. rewrite str_eqb_refl. cbn [fst snd].
  assert (T : forall p, take_string p (map Symbol (flat_map (fun '(escaped, s) => if escaped : bool then [lit "\"; s] else [s]) l) ++ Symbol (lit """") :: x) =
    (flat_map (fun '(escaped, s) => if escaped : bool then [lit "\"; s] else [s]) l, (p + length (flat_map (fun '(escaped, s) => if escaped : bool then [lit "\"; s] else [s]) l), Symbol (lit """") :: x))).
  { induction l as [|[[|] s] l IH]; intros p; cbn [flat_map map app length].
    - rewrite Nat.add_0_r. reflexivity.
    - cbn [take_string]. rewrite str_eqb_refl. rewrite IH by (intros; apply Hl; now right). do 2 f_equal. cbn [Nat.add]. lia.
    - destruct (Hl s (or_introl eq_refl)) as [H1 H2]. cbn [take_string]. rewrite (str_neqb H1), (str_neqb H2). rewrite IH by (intros; apply Hl; now right). do 2 f_equal. lia. }
  rewrite map_app. rewrite <- app_assoc. cbn [map app]. rewrite T. unfold just_symbol. cbn [snd fst]. rewrite str_eqb_refl. f_equal. f_equal. f_equal. cbn [length]. rewrite app_length. cbn [length]. lia.
Qed.
Definition brackets_ok (p before : nat) (f : Formula) (x : InputRow) : Prop :=
  spelled xs xc f /\ parse_token g rec (TBrackets [40%N] [41%N]) (p, sign 40 :: row_of before f ++ sign 41 :: x) =
    Ok (Some (in_brackets p (tree before (S p) f), (p + (before + width f + 2), x))).
Definition atom_ok (p : nat) (x : InputRow) (a : Atom Formula) : Prop :=
  match a with
  | ABrackets before f => brackets_ok p before f x
  | ACells v w cells => forall before f, In (before, f) cells -> parse_row_with rec (row_of before f) = Ok (tree before 0 f)
  | _ => True
  end.
Definition postfix_ok (p : nat) (x : InputRow) (op : Postfix Formula) : Prop :=
  match op with
  | PApply before f => brackets_ok p before f x
  | PScript u before f => parse_row_with rec (row_of before f) = Ok (tree before 0 f)
  | _ => True
  end.
Lemma not_empty p before f x : spelled xs xc f -> parse_token g rec (TEmptyBrackets [40%N] [41%N]) (p, sign 40 :: row_of before f ++ x) = Ok None.
Proof.
  intros Hs. cbn [parse_token]. unfold just_symbol at 1. cbn [snd sign fst]. change (str_eqb [40%N] [40%N]) with true. cbv iota.
  destruct before as [|before]; [|reflexivity]. unfold row_of. cbn [spaces repeat app]. destruct (written_head Hs) as (n&r&->&Hg). unfold just_symbol. cbn [snd app].
  destruct n as [v c|s]; [reflexivity|]. destruct Hg as [_ Hg]. rewrite (str_neqb Hg). reflexivity.
Qed.
Lemma row_of_length before f : length (row_of before f) = before + width f.
Proof. unfold row_of. now rewrite app_length, spaces_length. Qed.
Lemma new_in_brackets name p before f : syntax_node_new name (p, p + (before + width f + 2)) (in_brackets p (tree before (S p) f)) =
  Ok (mkSyntax name (in_brackets p (tree before (S p) f)) p (p + (before + width f + 2))).
Proof.
  apply new_three.
  - reflexivity.
  - now rewrite tree_start.
  - reflexivity.
  - change (S (end_of (tree before (S p) f)) = p + (before + width f + 2)). rewrite tree_end. lia.
Qed.
Lemma new_empty name p : syntax_node_new name (p, p + 2) (Children [op_leaf 40 p; op_leaf 41 (S p)]) = Ok (mkSyntax name (Children [op_leaf 40 p; op_leaf 41 (S p)]) p (p + 2)).
Proof. apply new_two; try reflexivity. unfold end_of. cbn. lia. Qed.
Lemma digit_neqb c d : digit c -> ~ digit d -> str_eqb [c] [d] = false.
Proof. intros H Hd. apply str_neqb, digit_ne; auto. Qed.
Lemma name_not_lim s l x : firstn 3 (s :: l) <> single (lit "lim") -> ends x -> firstn 3 (map Symbol (s :: l) ++ x) <> map Symbol (single (lit "lim")).
Proof.
  intros H Hx. apply (@firstn_ends (lit "lim")); [|cbn [length lit]|exact Hx].
  - repeat constructor; cbn; intuition discriminate.
  - intros E. apply H. rewrite <- map_firstn in E || rewrite firstn_map in E.
    assert (Inj : forall a b : list str, map Symbol a = map Symbol b -> a = b).
    { induction a as [|y a IH]; intros [|z b] E'; try discriminate; [reflexivity|]. cbn in E'. inv E'. f_equal. auto. }
    now apply Inj in E.
Qed.
Lemma atom_read before pos a k r : atom_spelled xs xc a -> ends r -> no_space r -> atom_ok (pos + before) (spaces k ++ r) a ->
  parse_prefix g rec (pos, spaces before ++ atom_row a ++ spaces k ++ r) = Ok None /\
  parse_atom g rec (pos, spaces before ++ atom_row a ++ spaces k ++ r) =
    Ok (Some (spaced (atom_name a) (atom_content (pos + before) a) pos before (length (atom_row a)) k, (pos + before + length (atom_row a) + k, r))).
Proof.
  intros Hs Hr Hr' Ho. pose proof (ends_spaces k Hr) as Hk. destruct a as [s l|c l d|c|l| |b a|v w cells]; cbn [atom_spelled atom_ok atom_row atom_name atom_content] in *.
  - destruct Hs as ((c&t&->&Hc&Ht)&Hl&Hlim).
    assert (Ne : forall d, In d signs -> str_eqb (c :: t) [d] = false) by (intros d Hd; apply str_neqb, start_ne; auto).
    assert (Hsp : no_space (map Symbol ((c :: t) :: l) ++ spaces k ++ r)) by (apply (Ne 32%N); cbn; tauto). split.
    + cbn [map app]. apply prefix_none; [exact Hsp| |exact (name_not_lim Hlim Hk)]. intros d Hd E. inv E. apply start_not_sign in Hc. apply Hc. cbn in Hd |- *. intuition.
    + unfold parse_atom. change (atom_rules g) with (firstn 7 (atom_rules g) ++ (named "Core" "Variable", TVariable) :: skipn 8 (atom_rules g)). apply choice_skip; [exact Hsp| |].
      * cbn [map app]. apply rules_begin. change (firstn 7 (atom_rules g)) with [(named "String" "String", TString); (constant_name Falsehood, TSymbols [[8869%N]] LSymbol); (constant_name Truth, TSymbols [[8868%N]] LSymbol);
          (constant_name Infinity, TSymbols [[8734%N]] LSymbol); (named "Arithmetic" "Number", TNumber); (named "Core" "RoundBrackets", TEmptyBrackets [40%N] [41%N]); (named "Core" "RoundBrackets", TBrackets [40%N] [41%N])].
        cbn [forallb begins]. change (lit """") with [34%N]. rewrite !Ne by (cbn; tauto). cbn [is_digits forallb].
        replace ((48 <=? c) && (c <=? 57))%N with false; [reflexivity|]. symmetry. apply andb_false_iff. rewrite !N.leb_gt.
        destruct (N.lt_ge_cases c 48); [now left|]. destruct (N.lt_ge_cases 57 c); [now right|]. rewrite (proj2 HC c) in Hc by lia. discriminate.
      * apply rule_some; [exact Hsp|exact Hr'| |reflexivity]. cbn [map app parse_token]. unfold parse_variable, select_symbol. cbn [snd is_identifier_start fst].
        change (g_xid_start g) with xs. change (g_xid_continue g) with xc. rewrite Hc, Ht. cbn [andb]. unfold repeat_symbols. cbn [fst snd]. rewrite take_all.
        -- cbn [leaf_token option_map length]. rewrite map_length. replace (pos + before + S (length l)) with (S (pos + before) + length l) by lia. reflexivity.
        -- intros s Hs. apply Hl, Hs.
        -- apply ends_symbol; [|exact Hk]. unfold is_identifier_continue. cbn [forallb]. change (g_xid_continue g) with xc.
           apply Forall_forall. intros d Hd. apply stops_signs in Hd. apply HC in Hd as [_ ->]. reflexivity.
  - destruct Hs as (Hc&Hl&Hd). assert (Ne : forall d, ~ digit d -> str_eqb [c] [d] = false) by (intros y Hy; now apply digit_neqb).
    assert (Hsp : no_space (map Symbol (number_symbols c l d) ++ spaces k ++ r)) by (apply (Ne 32%N); unfold digit; lia). split.
    + unfold number_symbols, single in *. cbn [map app] in *. apply prefix_none; [exact Hsp| |].
      * intros y Hy E. inv E. unfold digit in Hc. cbn in Hy. lia.
      * intros E. inv E. unfold digit in Hc. lia.
    + unfold parse_atom. change (atom_rules g) with (firstn 4 (atom_rules g) ++ (named "Arithmetic" "Number", TNumber) :: skipn 5 (atom_rules g)). apply choice_skip; [exact Hsp| |].
      * unfold number_symbols, single. cbn [map app]. apply rules_begin. cbn -[str_eqb]. rewrite !Ne by (unfold digit; lia). reflexivity.
      * apply rule_some; [exact Hsp|exact Hr'| |reflexivity]. cbn [parse_token]. rewrite number_read by auto. cbn [leaf_token option_map]. now rewrite map_length.
  - split; [cbn [app]; apply prefix_none; [destruct c; reflexivity| |destruct c; intros E; discriminate E]|].
    + intros y Hy E. destruct c; inv E; cbn in Hy; intuition discriminate.
    + destruct (@find_split _ (fun '(_, t) => begins g (sign (constant_char c)) t) (atom_rules g) (constant_name c, TSymbols [[constant_char c]] LSymbol)) as (a&b&E&Ha); [destruct c; reflexivity|].
      unfold parse_atom. rewrite E. cbn [app]. apply choice_skip; [destruct c; reflexivity| |].
      * apply rules_begin. rewrite forallb_forall in Ha |- *. intros [name t] Ht. apply (Ha _ Ht).
      * apply rule_some; [destruct c; reflexivity|exact Hr'| |reflexivity]. exact (@text_token g rec [constant_char c] LSymbol (pos + before) _).
  - split; [cbn [string_symbols map app]; apply prefix_none; [reflexivity| |intros E; discriminate E]|].
    + intros y Hy E. inv E. cbn in Hy. intuition discriminate.
    + unfold parse_atom. change (atom_rules g) with ([] ++ (named "String" "String", TString) :: skipn 1 (atom_rules g)). apply choice_skip; [reflexivity|intros ? ? []|].
      apply rule_some; [reflexivity|exact Hr'| |reflexivity]. cbn [parse_token]. rewrite string_read by auto. cbn [leaf_token option_map]. now rewrite map_length.
  - split; [cbn [app]; apply prefix_none; [reflexivity| |intros E; discriminate E]|].
    + intros y Hy E. inv E. cbn in Hy. intuition discriminate.
    + unfold parse_atom. change (atom_rules g) with (firstn 5 (atom_rules g) ++ (named "Core" "RoundBrackets", TEmptyBrackets [40%N] [41%N]) :: skipn 6 (atom_rules g)). apply choice_skip; [reflexivity| |].
      * cbn [app]. apply rules_begin. reflexivity.
      * apply rule_some; [reflexivity|exact Hr'| |apply new_empty]. cbn [app parse_token length]. replace (pos + before + 2) with (S (S (pos + before))) by lia. reflexivity.
  - destruct Ho as [Ha Ho]. assert (W : length (sign 40 :: row_of b a ++ [sign 41]) = b + width a + 2) by (cbn [length]; rewrite app_length, row_of_length; cbn [length]; lia). rewrite W.
    cbn [app]. rewrite <- app_assoc. cbn [app]. split.
    + apply prefix_none; [reflexivity| |intros E; discriminate E]. intros y Hy E. inv E. cbn in Hy. intuition discriminate.
    + unfold parse_atom. change (atom_rules g) with ((firstn 5 (atom_rules g) ++ [(named "Core" "RoundBrackets", TEmptyBrackets [40%N] [41%N])]) ++ (named "Core" "RoundBrackets", TBrackets [40%N] [41%N]) :: skipn 7 (atom_rules g)).
      apply choice_skip; [reflexivity| |].
      * intros name t Hin. apply in_app_or in Hin as [Hin|[E|[]]].
        -- eapply (@rules_begin g rec (firstn 5 (atom_rules g))); [reflexivity|exact Hin].
        -- inv E. now apply not_empty.
      * apply rule_some; [reflexivity|exact Hr'|exact Ho|apply new_in_brackets].
  - destruct Hs as (Hv&Hw&_&Hm). split; [cbn [app]; apply prefix_none; [reflexivity|intros y _ E; discriminate E|intros E; discriminate E]|].
    assert (Fv : exists n, v = Fraction /\ n = 10 \/ v = RootV /\ n = 9 \/ v = Table /\ n = 8) by (cbn in Hv; destruct Hv as [<-|[<-|[<-|[]]]]; eauto).
    destruct Fv as (n&Fv). unfold parse_atom.
    assert (E : atom_rules g = firstn n (atom_rules g) ++ (cells_name v, TContainer v) :: skipn (S n) (atom_rules g)) by (destruct Fv as [[-> ->]|[[-> ->]|[-> ->]]]; reflexivity). rewrite E.
    apply choice_skip; [reflexivity| |].
    + cbn [app]. apply rules_begin. destruct Fv as [[-> ->]|[[-> ->]|[-> ->]]]; reflexivity.
    + apply rule_some; [reflexivity|exact Hr'| |reflexivity]. cbn [app length]. rewrite Nat.add_1_r. apply cell_token; [|exact Hw|now rewrite map_length].
      clear -Ho. induction cells as [|[b f] cells IH]; cbn [map]; constructor; [apply Ho; now left|]. apply IH. intros. apply Ho. now right.
Qed.
Lemma postfix_read pos op k r : ends r -> no_space r -> postfix_ok pos (spaces k ++ r) op ->
  parse_infix g rec (pos, postfix_row op ++ spaces k ++ r) = Ok None /\
  parse_postfix g rec (pos, postfix_row op ++ spaces k ++ r) = Ok (Some ((postfix_value pos op k, postfix_op op), (end_of (postfix_value pos op k), r))).
Proof.
  intros Hr Hr' Ho. rewrite postfix_value_end. unfold postfix_value. split; [destruct op; apply infix_none; reflexivity|].
  unfold parse_postfix. destruct op as [| |b f|u b f]; cbn [postfix_row postfix_ok] in *.
  - destruct (@find_split _ (fun o => begins g (sign 33) (op_token o)) (postfix_ops g) (postfix_op PFactorial)) as (x&y&E&Ha); [reflexivity|].
    rewrite E. apply (@iter_skip g rec 0); [reflexivity|cbn [app]; now apply ops_begin|]. eapply op_postfix; [reflexivity|reflexivity|exact Hr'| |reflexivity].
    exact (@text_token g rec [33%N] LOperator pos _).
  - change (postfix_ops g) with ([] ++ postfix_op PCall :: skipn 1 (postfix_ops g)). apply (@iter_skip g rec 0); [reflexivity|intros ? []|].
    eapply op_postfix; [reflexivity|reflexivity|exact Hr'| |apply new_empty]. cbn [app length]. replace (pos + 2) with (S (S pos)) by lia. reflexivity.
  - destruct Ho as [Hf Ho]. assert (W : length (sign 40 :: row_of b f ++ [sign 41]) = b + width f + 2) by (cbn [length]; rewrite app_length, row_of_length; cbn [length]; lia). rewrite W.
    cbn [app]. rewrite <- app_assoc. cbn [app]. change (postfix_ops g) with ([postfix_op PCall] ++ postfix_op (PApply b f) :: skipn 2 (postfix_ops g)).
    apply (@iter_skip g rec 0); [reflexivity| |].
    + intros o [<-|[]]. now apply not_empty.
    + eapply op_postfix; [reflexivity|reflexivity|exact Hr'|exact Ho|apply new_in_brackets].
  - destruct (@find_split _ (fun o => begins g (Container (script u) (mkGrid [row_of b f] 1)) (op_token o)) (postfix_ops g) (postfix_op (PScript u b f))) as (x&y&E&Ha); [destruct u; reflexivity|].
    rewrite E. apply (@iter_skip g rec 0); [reflexivity|cbn [app]; now apply ops_begin|]. eapply op_postfix; [reflexivity|reflexivity|exact Hr'| |reflexivity].
    cbn [app length]. rewrite Nat.add_1_r. apply cell_token; [constructor; [exact Ho|constructor]|lia|reflexivity].
Qed.
End Tokens.

Lemma letters_no_stops t : forallb (fun c => negb (existsb (N.eqb c) stops)) t = true -> Forall (fun c => ~ In c stops) t.
Proof.
  intros H. apply Forall_forall. rewrite forallb_forall in H. intros c Hc Hin. apply H in Hc. apply negb_true_iff in Hc.
  assert (existsb (N.eqb c) stops = true) by (apply existsb_exists; exists c; split; [exact Hin|apply N.eqb_refl]). congruence.
Qed.
(** A closing bracket *)
Lemma at_close row pos r : wf_row row -> skipn pos row = sign 41 :: r -> next g (EndSymbol [41%N]) Operator (inp row pos) = Ok None.
Proof.
  intros Hwf H. destruct (inp_cons H) as (E&E'&Hl&_).
  assert (A : atom_at g (inp row pos) = Ok None).
  { unfold atom_at. generalize (token_parser g (inp row pos)). intros rec. rewrite E. apply (@choice_none g rec 0); [reflexivity|]. apply rules_begin.
    cbn. now rewrite (proj1 (proj1 HC 41%N ltac:(cbn; tauto))). }
  assert (Q : postfix_at g (inp row pos) = Ok None).
  { unfold postfix_at. generalize (token_parser g (inp row pos)). intros rec. rewrite E. apply (@iter_none g rec 0); [reflexivity|]. now apply ops_begin. }
  assert (I : infix_at g (inp row pos) = Ok None).
  { unfold infix_at. generalize (token_parser g (inp row pos)). intros rec. rewrite E. apply infix_none; reflexivity. }
  assert (X : prefix_at g (inp row pos) = Ok None).
  { unfold prefix_at. generalize (token_parser g (inp row pos)). intros rec. rewrite E. apply (@iter_none g rec 0); [reflexivity|]. now apply ops_begin. }
  unfold next. rewrite A, Q, I, X. cbn [bind]. rewrite E. reflexivity.
Qed.
Lemma brackets_at row start p before f x : wf_row row -> start <= p -> spelled xs xc f -> conventional 0 0 f -> skipn p row = sign 40 :: row_of before f ++ sign 41 :: x ->
  lexes g (EndSymbol [41%N]) (Operand, inp row (S p)) (flatten (expr before (S p) f)) (Operator, inp row (S p + before + width f)) ->
  brackets_ok (token_parser g (inp row start)) p before f x.
Proof.
  intros Hwf Hst Hs Hc H L. split; [exact Hs|]. destruct (inp_cons H) as (E&E'&Hlt&Hn). destruct (skipn_cons_S H) as (Hk&_&_). pose proof (skipn_app_len Hk) as Hk'. rewrite row_of_length, Nat.add_assoc in Hk'.
  destruct (inp_cons Hk') as (_&Ee&_&Hn'). rewrite <- E.
  pose proof (@brackets_read g Htok Hcont row start p [40%N] [41%N] (expr before (S p) f) (S p + before + width f) Hwf Hst Hn Hn' (@expr_respects f 0 0 before (S p) ltac:(lia) Hc) L (at_close Hwf Hk')) as B.
  rewrite B, build_expr, Ee. unfold in_brackets. pose proof (tree_end before (S p) f) as T. unfold end_of in T. rewrite T.
  replace (p + (before + width f + 2)) with (S (S p + before + width f)) by lia. reflexivity.
Qed.

(** ** The tokens of a formula *)
Lemma symbols_wf l : wf_row (map Symbol l).
Proof. intros n Hn. apply in_map_iff in Hn as (s&<-&_). constructor. Qed.
Lemma spaces_wf k : wf_row (spaces k).
Proof. rewrite spaces_symbols. apply symbols_wf. Qed.
Lemma script_wf u r : wf_row r -> wf_node (Container (script u) (mkGrid [r] 1)).
Proof. intros H. constructor; [lia|discriminate|reflexivity|]. intros c [<-|[]]. exact H. Qed.
Lemma scripts_wf s : (forall f, in_scripts f s -> wf_row (written f)) -> wf_row (written_scripts s).
Proof.
  induction s as [|[[[u b] a] k] s IH]; intros H; [exact wf_row_nil|]. cbn [written_scripts flat_map]. apply wf_row_app. split.
  - apply wf_row_cons. split; [|apply spaces_wf]. apply script_wf. apply wf_row_app. split; [apply spaces_wf|]. apply H. exists u, b, k. now left.
  - apply IH. intros f (u'&b'&k'&Hf). apply H. exists u', b', k'. now right.
Qed.
Lemma written_wf f : spelled xs xc f -> wf_row (written f).
Proof.
  induction f as [a k IHa|op k s a IHs IHa|a op k s b IHa IHs IHb|a op k IHa IHo] using formula_induction; intros Hs.
  - rewrite written_atom. apply wf_row_app. split; [|apply spaces_wf]. apply spelled_atom in Hs as [Hs Hi]. destruct a as [s l|c l d|c|l| |b a|v w cells]; cbn [atom_row]; try apply symbols_wf.
    + apply wf_row_cons. split; [constructor|exact wf_row_nil].
    + apply wf_row_cons. split; [constructor|]. apply wf_row_cons. split; [constructor|exact wf_row_nil].
    + apply wf_row_cons. split; [constructor|]. apply wf_row_app. split; [|apply wf_row_cons; split; [constructor|exact wf_row_nil]]. apply wf_row_app. split; [apply spaces_wf|]. apply IHa; [reflexivity|]. now apply Hi.
    + apply wf_row_cons. split; [|exact wf_row_nil]. cbn in Hs. destruct Hs as (Hv&Hw&Hne&Hm). constructor; [exact Hw|destruct cells; [congruence|discriminate]|now rewrite map_length|].
      intros c Hc. apply in_map_iff in Hc as ([b f]&<-&Hf). apply wf_row_app. split; [apply spaces_wf|]. apply IHa; [cbn; eauto|]. apply Hi. cbn. eauto.
  - apply spelled_prefix in Hs as (H1&H2&_). rewrite written_prefix. apply wf_row_app. split; [apply symbols_wf|]. apply wf_row_app. split; [apply spaces_wf|]. apply wf_row_app. split; [apply scripts_wf; auto|auto].
  - apply spelled_infix in Hs as (H0&H1&H2). rewrite written_infix. apply wf_row_app. split; [auto|]. apply wf_row_cons. split; [constructor|].
    apply wf_row_app. split; [apply spaces_wf|]. apply wf_row_app. split; [apply scripts_wf; auto|auto].
  - apply spelled_postfix in Hs as (H0&H1). rewrite written_postfix. apply wf_row_app. split; [auto|]. apply wf_row_app. split; [|apply spaces_wf].
    destruct op as [| |b f|u b f]; cbn [postfix_row].
    + apply wf_row_cons. split; [constructor|exact wf_row_nil].
    + apply wf_row_cons. split; [constructor|]. apply wf_row_cons. split; [constructor|exact wf_row_nil].
    + apply wf_row_cons. split; [constructor|]. apply wf_row_app. split; [|apply wf_row_cons; split; [constructor|exact wf_row_nil]]. apply wf_row_app. split; [apply spaces_wf|]. apply IHo; [reflexivity|]. now apply H1.
    + apply wf_row_cons. split; [|exact wf_row_nil]. apply script_wf. apply wf_row_app. split; [apply spaces_wf|]. apply IHo; [reflexivity|]. now apply H1.
Qed.
Lemma row_of_wf before f : spelled xs xc f -> wf_row (row_of before f).
Proof. intros H. apply wf_row_app. split; [apply spaces_wf|now apply written_wf]. Qed.
Definition lexed (f : Formula) : Prop := forall row pos before rest e, wf_row row -> skipn pos row = spaces before ++ written f ++ rest -> ends rest -> no_space rest ->
  lexes g e (Operand, inp row pos) (flatten (expr before pos f)) (Operator, inp row (pos + before + width f)).
Lemma parse_lexed before f : spelled xs xc f -> conventional 0 0 f -> lexed f -> parse g (row_of before f) = Ok (tree before 0 f).
Proof.
  intros Hs Hc L. pose proof (@row_of_wf before f Hs) as Hwf. rewrite <- build_expr. apply (parse_complete Htok Hcont); [exact Hwf| |exact (@expr_respects f 0 0 before 0 ltac:(lia) Hc)].
  exists (inp (row_of before f) (before + width f)). split; [apply (L (row_of before f) 0 before [] EndInput); auto; [now rewrite app_nil_r|exact I|exact I]|].
  pose proof (row_of_length before f) as El. rewrite <- El.
  destruct (at_end_none Htok Hcont Hwf (Nat.le_refl _) (Nat.le_refl _)) as (E1&E2&E3&E4); [apply at_end_inp; reflexivity|].
  unfold next. rewrite E1, E2, E3, E4. cbn [bind]. unfold is_at_end. now rewrite (proj2 (at_end_inp (Nat.le_refl (length (row_of before f)))) eq_refl).
Qed.
Lemma skipn_len (row : InputRow) pos l : skipn pos row = l -> l <> [] -> pos <= length row.
Proof. intros H Hl. destruct (Nat.le_gt_cases pos (length row)) as [?|Hgt]; [assumption|]. rewrite skipn_all2 in H by lia. congruence. Qed.
Lemma inner_scripts row pos s : wf_row row -> pos <= length row -> (forall n, In n (written_scripts s) -> In n (skipn pos row)) ->
  (forall f, in_scripts f s -> forall b, parse g (row_of b f) = Ok (tree b 0 f)) -> inner_ok (token_parser g (inp row pos)) s.
Proof.
  intros Hwf Hp Hin H u b a k Hs. apply (@inner_read g Htok Hcont row pos (script u) (mkGrid [row_of b a] 1)); auto.
  - apply Hin. unfold written_scripts. apply in_flat_map. exists (u, b, a, k). split; [exact Hs|now left].
  - now left.
  - apply H. exists u, b, k. exact Hs.
Qed.
Lemma lex_formula f : spelled xs xc f -> forall l r, conventional l r f -> lexed f.
Proof.
  induction f as [a k IHa|op k s a IHs IHa|a op k s b IHa IHs IHb|a op k IHa IHo] using formula_induction; intros Hs l r Hc row pos before rest e Hwf H Hr Hr'.
  - apply spelled_atom in Hs as [Ha Hi]. rewrite conventional_atom in Hc. rewrite written_atom in H. rewrite <- app_assoc in H.
    assert (Hne : atom_row a <> []) by (destruct (atom_head Ha) as (n&t&->&_); discriminate).
    assert (Hp : pos <= length row) by (eapply skipn_len; [exact H|]; destruct (spaces before); [destruct (atom_row a); [congruence|discriminate]|discriminate]).
    pose proof (skipn_app_len H) as Hk. rewrite spaces_length in Hk.
    assert (Ho : atom_ok (token_parser g (inp row pos)) (pos + before) (spaces k ++ rest) a).
    { destruct a as [s t|c t d|c|t| |b a|v w cells]; cbn [atom_ok]; try exact I.
      - cbn [atom_row app] in Hk. rewrite <- app_assoc in Hk. cbn [app] in Hk. destruct (skipn_cons_S Hk) as (Hk2&_&_).
        apply brackets_at with (row := row); auto; [lia|apply Hi; reflexivity|apply Hc; reflexivity|].
        apply (IHa a eq_refl (Hi a eq_refl) 0 0 (Hc a eq_refl)) with (rest := sign 41 :: spaces k ++ rest); [exact Hwf| |exists 41%N; split; [reflexivity|cbn; tauto]|reflexivity].
        rewrite Hk2. unfold row_of. now rewrite <- app_assoc.
      - intros b f Hf. assert (Hin : in_atom f (ACells v w cells)) by (cbn; eauto).
        apply (@inner_read g Htok Hcont row pos v (mkGrid (map (fun '(before, a) => row_of before a) cells) w)); auto.
        + rewrite H. cbn [atom_row]. apply in_or_app. right. now left.
        + cbn [gvalues]. apply in_map_iff. exists (b, f). auto.
        + apply parse_lexed; auto. exact (IHa f Hin (Hi f Hin) 0 0 (Hc f Hin)). }
    destruct (atom_read Ha Hr Hr' Ho) as [E1 E2]. rewrite width_atom.
    assert (Ei : inp row pos = (pos, spaces before ++ atom_row a ++ spaces k ++ rest)) by (unfold inp; now rewrite H).
    assert (Ee : inp row (pos + before + (length (atom_row a) + k)) = (pos + before + length (atom_row a) + k, rest)).
    { unfold inp. f_equal; [lia|]. apply skipn_app_len in Hk. apply skipn_app_len in Hk. rewrite spaces_length in Hk. rewrite <- Hk. f_equal. lia. }
    cbn [expr flatten]. apply lexes_one. cbn [fst snd]. apply (next_atom Htok Hcont Hwf Hp).
    + unfold prefix_at. rewrite Ei at 2. exact E1.
    + unfold atom_at. rewrite Ei at 2. rewrite E2, Ee, tree_atom. reflexivity.
  - apply spelled_prefix in Hs as (Hss&Ha&Hlim). apply conventional_prefix in Hc as (_&Hcs&Hca). rewrite written_prefix in H. rewrite <- !app_assoc in H.
    assert (Hp : pos <= length row) by (eapply skipn_len; [exact H|]; destruct (spaces before); destruct op; discriminate).
    assert (Ho : inner_ok (token_parser g (inp row pos)) s).
    { apply inner_scripts; auto.
      - intros n Hn. rewrite H. apply in_or_app. right. apply in_or_app. right. apply in_or_app. right. apply in_or_app. now left.
      - intros f Hf b. apply parse_lexed; auto. exact (IHs f Hf (Hss f Hf) 0 0 (Hcs f Hf)). }
    pose proof (@prefix_read (token_parser g (inp row pos)) before pos op k s (written a ++ rest) Ho (written_no_space rest Ha) (written_no_script rest Ha)) as R.
    assert (N3 : op = Lim -> k = 0 -> s = [] -> firstn 3 (written a ++ rest) <> map Symbol (single (lit "sup")) /\ firstn 3 (written a ++ rest) <> map Symbol (single (lit "inf"))).
    { intros X1 X2 X3. destruct (Hlim X1 X2 X3) as [N1 N2]. split; [apply (@firstn_ends (lit "sup"))|apply (@firstn_ends (lit "inf"))]; try assumption; apply letters_no_stops; reflexivity. }
    specialize (R N3).
    pose proof H as Hk. do 4 apply skipn_app_len in Hk. rewrite !spaces_length, map_length in Hk. unfold single in Hk. rewrite map_length in Hk.
    pose proof (prefix_value_end before pos op k s) as Pe. rewrite <- Pe in Hk.
    cbn [expr flatten]. econstructor; cbn [fst snd].
    + apply (next_prefix Htok Hcont Hwf Hp). unfold prefix_at. unfold inp at 2. rewrite H. exact R.
    + replace (pos + before + width (FPrefix op k s a)) with (end_of (prefix_value before pos op k s) + 0 + width a) by (rewrite Pe, width_prefix; lia).
      pose proof (IHa Ha _ _ Hca row (end_of (prefix_value before pos op k s)) 0 rest e Hwf Hk Hr Hr') as L. unfold inp at 1 in L. rewrite Hk in L. exact L.
  - apply spelled_infix in Hs as (Ha&Hss&Hb). apply conventional_infix in Hc as (_&_&Hcs&Hca&Hcb). rewrite written_infix in H. rewrite <- app_assoc in H. cbn [app] in H. rewrite <- !app_assoc in H.
    assert (La : lexes g e (Operand, inp row pos) (flatten (expr before pos a)) (Operator, inp row (pos + before + width a))).
    { eapply (IHa Ha); eauto; [exists (infix_char op); split; [reflexivity|destruct op; cbn; tauto]|destruct op; reflexivity]. }
    pose proof H as Hk. do 2 apply skipn_app_len in Hk. rewrite spaces_length in Hk. fold (width a) in Hk. remember (pos + before + width a) as q eqn:Eq.
    assert (Hp : q <= length row) by (eapply skipn_len; [exact Hk|discriminate]).
    assert (Ho : inner_ok (token_parser g (inp row q)) s).
    { apply inner_scripts; auto.
      - intros n Hn. rewrite Hk. right. apply in_or_app. right. apply in_or_app. now left.
      - intros f Hf b0. apply parse_lexed; auto. exact (IHs f Hf (Hss f Hf) 0 0 (Hcs f Hf)). }
    pose proof (@infix_read (token_parser g (inp row q)) q op k s (written b ++ rest) Ho (written_no_space rest Hb) (written_no_script rest Hb)) as R.
    pose proof Hk as Hk2. destruct (skipn_cons_S Hk2) as (Hk3&_&_). do 2 apply skipn_app_len in Hk3. rewrite spaces_length in Hk3.
    pose proof (infix_value_end q op k s) as Pe. replace (S q + k + length (written_scripts s)) with (end_of (infix_value q op k s)) in Hk3 by lia.
    cbn [expr flatten]. rewrite <- Eq. eapply lexes_app; [exact La|]. econstructor; cbn [fst snd].
    + apply (next_infix Htok Hcont Hwf Hp). unfold infix_at. unfold inp at 2. rewrite Hk. exact R.
    + replace (pos + before + width (FInfix a op k s b)) with (end_of (infix_value q op k s) + 0 + width b) by (rewrite Pe, width_infix; lia).
      pose proof (IHb Hb _ _ Hcb row (end_of (infix_value q op k s)) 0 rest e Hwf Hk3 Hr Hr') as L. unfold inp at 1 in L. rewrite Hk3 in L. exact L.
  - apply spelled_postfix in Hs as (Ha&Hi). apply conventional_postfix in Hc as (Hca&Hci). rewrite written_postfix in H. rewrite <- !app_assoc in H.
    assert (La : lexes g e (Operand, inp row pos) (flatten (expr before pos a)) (Operator, inp row (pos + before + width a))).
    { eapply (IHa Ha); eauto; destruct op; cbn; auto; eexists; (split; [reflexivity|cbn; tauto]). }
    pose proof H as Hk. do 2 apply skipn_app_len in Hk. rewrite spaces_length in Hk. fold (width a) in Hk. remember (pos + before + width a) as q eqn:Eq.
    assert (Hp : q <= length row) by (eapply skipn_len; [exact Hk|destruct op; discriminate]).
    assert (Ho : postfix_ok (token_parser g (inp row q)) q (spaces k ++ rest) op).
    { destruct op as [| |b f|u b f]; cbn [postfix_ok]; try exact I.
      - cbn [postfix_row app] in Hk. rewrite <- app_assoc in Hk. cbn [app] in Hk. destruct (skipn_cons_S Hk) as (Hk2&_&_).
        apply brackets_at with (row := row); auto; [apply Hi; reflexivity|apply Hci; reflexivity|].
        apply (IHo f eq_refl (Hi f eq_refl) 0 0 (Hci f eq_refl)) with (rest := sign 41 :: spaces k ++ rest); [exact Hwf| |exists 41%N; split; [reflexivity|cbn; tauto]|reflexivity].
        rewrite Hk2. unfold row_of. now rewrite <- app_assoc.
      - apply (@inner_read g Htok Hcont row q (script u) (mkGrid [row_of b f] 1)); auto.
        + rewrite Hk. now left.
        + now left.
        + apply parse_lexed; [apply Hi; reflexivity|apply Hci; reflexivity|]. exact (IHo f eq_refl (Hi f eq_refl) 0 0 (Hci f eq_refl)). }
    destruct (postfix_read Hr Hr' Ho) as [E1 E2].
    assert (Ee : inp row (pos + before + width (FPostfix a op k)) = (end_of (postfix_value q op k), rest)).
    { unfold inp. rewrite postfix_value_end, width_postfix. f_equal; [lia|]. apply skipn_app_len in Hk. apply skipn_app_len in Hk. rewrite spaces_length in Hk. rewrite <- Hk. f_equal. lia. }
    cbn [expr flatten]. rewrite <- Eq. eapply lexes_app; [exact La|]. apply lexes_one. cbn [fst snd]. apply (next_postfix Htok Hcont Hwf Hp).
    + unfold infix_at. unfold inp at 2. rewrite Hk. exact E1.
    + unfold postfix_at. unfold inp at 2. rewrite Hk, E2, Ee. reflexivity.
Qed.
Theorem formula_parse before f : spelled xs xc f -> conventional 0 0 f -> parse g (spaces before ++ written f) = Ok (tree before 0 f).
Proof. intros Hs Hc. apply parse_lexed; auto. exact (lex_formula Hs Hc). Qed.
End Formulas.

(** ** Formulas are unambiguous *)
Lemma singles_inj (l l' : list N) : single l = single l' -> l = l'.
Proof. revert l'. unfold single. induction l as [|c l IH]; intros [|c' l'] H; cbn in H; try discriminate; [reflexivity|]. inv H. f_equal. auto. Qed.
Lemma digits_dot (l l' d d' : list N) : Forall digit l -> Forall digit l' -> l ++ 46%N :: d = l' ++ 46%N :: d' -> l = l' /\ d = d'.
Proof.
  revert l'. induction l as [|c l IH]; intros [|c' l'] Hl Hl' H; cbn in H; inv H; auto.
  - inv Hl'. unfold digit in *. lia.
  - inv Hl. unfold digit in *. lia.
  - inv Hl. inv Hl'. destruct (IH l') as [-> ->]; auto.
Qed.
Lemma number_symbols_inj c l d c' l' d' : Forall digit l -> Forall digit l' -> number_symbols c l d = number_symbols c' l' d' -> c = c' /\ l = l' /\ d = d'.
Proof.
  intros Hl Hl' H. unfold number_symbols in H.
  assert (E : forall d, match d with [] => [] | _ => single (46%N :: d) end = single (match d with [] => [] | _ => 46%N :: d end)) by (intros [|? ?]; reflexivity).
  rewrite !E in H. unfold single in H. rewrite <- !map_app in H. apply singles_inj in H. cbn [app] in H. inv H. split; [reflexivity|].
  assert (Dot : forall (l : list N), Forall digit l -> forall a b, l <> a ++ 46%N :: b).
  { intros k Hk a b ->. apply Forall_app in Hk as [_ Hk]. inv Hk. unfold digit in *. lia. }
  destruct d as [|x d], d' as [|x' d']; rewrite ?app_nil_r in H2.
  - auto.
  - exfalso. exact (Dot _ Hl _ _ H2).
  - exfalso. symmetry in H2. exact (Dot _ Hl' _ _ H2).
  - apply digits_dot in H2 as [-> ->]; auto.
Qed.
Lemma string_symbols_inj l l' : (forall s, In (false, s) l -> s <> lit """" /\ s <> lit "\") -> (forall s, In (false, s) l' -> s <> lit """" /\ s <> lit "\") ->
  string_symbols l = string_symbols l' -> l = l'.
Proof.
  intros H H' E. unfold string_symbols in E. injection E as E. apply app_inv_tail in E. revert l' H H' E.
  induction l as [|[[|] s] l IH]; intros [|[[|] s'] l'] H H' E; cbn [flat_map app] in E; try discriminate E.
  - reflexivity.
  - injection E as <- E. f_equal. apply IH; auto; intros; [apply H|apply H']; now right.
  - injection E as E _. exfalso. apply (proj2 (H' s' (or_introl eq_refl))). now rewrite <- E.
  - injection E as E _. exfalso. now apply (proj2 (H s (or_introl eq_refl))).
  - injection E as <- E. f_equal. apply IH; auto; intros; [apply H|apply H']; now right.
Qed.
Definition whole (name : PathIdentifier) : Prop := name <> named "BuiltIn" "Whitespace" /\ name <> named "BuiltIn" "Whitespaces".
Lemma blank_inj k k' p p' n : blank k p = [n] -> blank k' p' = [n] -> k = k'.
Proof.
  destruct k as [|k], k' as [|k']; cbn [blank]; intros H H'; try discriminate. inv H. inv H'. lia.
Qed.
Lemma spaced_inj name c p before len after name' c' before' len' after' : whole name -> whole name' ->
  spaced name c p before len after = spaced name' c' p before' len' after' -> name = name' /\ c = c' /\ before = before' /\ len = len' /\ after = after'.
Proof.
  intros [Hw1 Hw2] [Hw1' Hw2'] H. unfold spaced in H.
  destruct before as [|k], after as [|m], before' as [|k'], after' as [|m']; cbn [blank app] in H; injection H; clear H; intros; subst; try congruence; repeat split; try lia.
Qed.
Lemma spaced_name name c p before len after : syn_name (spaced name c p before len after) = match before, after with 0, 0 => name | _, _ => named "BuiltIn" "Whitespaces" end.
Proof. unfold spaced. destruct before, after; reflexivity. Qed.
Local Opaque spaced.
Lemma scripts_inj (Q : Formula -> Prop) s : (forall f, in_scripts f s -> forall b p b' f', Q f' -> tree b p f = tree b' p f' -> b = b' /\ f = f') -> forall s' c p b l k c' b' l' k',
  (forall f, in_scripts f s' -> Q f) ->
  scripts_tree s (spaced operator_name c p b l k) = scripts_tree s' (spaced operator_name c' p b' l' k') ->
  s = s' /\ spaced operator_name c p b l k = spaced operator_name c' p b' l' k'.
Proof.
  induction s as [|[[[u e] a] j] s IH] using rev_ind; intros Hs s' c p b l k c' b' l' k' Hq H; destruct s' as [|[[[u' e'] a'] j'] s' _] using rev_ind.
  - auto.
  - exfalso. unfold scripts_tree in H. rewrite fold_left_app in H. cbn [fold_left script_tree] in H.
    assert (N : syn_name (spaced operator_name c p b l k) = cells_name (script u')) by now rewrite H. rewrite spaced_name in N. destruct b, k, u'; discriminate N.
  - exfalso. unfold scripts_tree in H. rewrite fold_left_app in H. cbn [fold_left script_tree] in H.
    assert (N : syn_name (spaced operator_name c' p b' l' k') = cells_name (script u)) by now rewrite <- H. rewrite spaced_name in N. destruct b', k', u; discriminate N.
  - unfold scripts_tree in H. rewrite !fold_left_app in H. cbn [fold_left] in H.
    assert (In1 : in_scripts a (s ++ [(u, e, a, j)])) by (exists u, e, j; apply in_or_app; right; now left).
    assert (In2 : in_scripts a' (s' ++ [(u', e', a', j')])) by (exists u', e', j'; apply in_or_app; right; now left).
    assert (Ht : tree e 0 a = tree e' 0 a') by (cbn [script_tree] in H; injection H; intros _ _ E3 E4 _; rewrite E4 in E3; apply spaced_inj in E3 as (_&E&_); [injection E as E; exact E|split; discriminate|split; discriminate]).
    destruct (Hs a In1 e 0 e' a' (Hq a' In2) Ht) as [-> ->].
    assert (Hn : fold_left script_tree s (spaced operator_name c p b l k) = fold_left script_tree s' (spaced operator_name c' p b' l' k') /\ u = u' /\ j = j').
    { cbn [script_tree] in H. injection H. intros E1 E2 E3 E4 E5. split; [exact E4|]. rewrite E4 in E3. apply spaced_inj in E3 as (_&_&_&_&->); [|split; discriminate|split; discriminate].
      split; [|reflexivity]. destruct u, u'; try reflexivity; discriminate E5. }
    destruct Hn as (Hn&->&->). destruct (IH) with (s' := s') (c := c) (p := p) (b := b) (l := l) (k := k) (c' := c') (b' := b') (l' := l') (k' := k') as [-> E]; auto.
    + intros f (u0&b0&k0&Hf). apply Hs. exists u0, b0, k0. apply in_or_app. now left.
    + intros f (u0&b0&k0&Hf). apply Hq. exists u0, b0, k0. apply in_or_app. now left.
Qed.
Lemma infix_name_inj op op' : infix_name op = infix_name op' -> op = op'.
Proof. destruct op, op'; cbn; intros H; try reflexivity; discriminate H. Qed.
Lemma prefix_name_inj op op' : prefix_name op = prefix_name op' -> op = op'.
Proof. destruct op, op'; cbn; intros H; try reflexivity; discriminate H. Qed.
Lemma atom_whole (a : Atom Formula) : whole (atom_name a).
Proof. destruct a as [| |[| |]| | | |[| | | |]]; split; discriminate. Qed.
Lemma tree_name before p f : syn_name (tree before p f) = match f with FAtom a k => match before, k with 0, 0 => atom_name a | _, _ => named "BuiltIn" "Whitespaces" end
  | FPrefix op _ _ _ => prefix_name op | FInfix _ op _ _ _ => infix_name op | FPostfix _ op _ => postfix_name op end.
Proof. destruct f as [a k| | |]; [|reflexivity..]. rewrite tree_atom. apply spaced_name. Qed.
Lemma atom_content_inj xs xc p a a' : atom_spelled xs xc a -> atom_spelled xs xc a' ->
  (forall f, in_atom f a -> forall b p b' f', in_atom f' a' -> tree b p f = tree b' p f' -> b = b' /\ f = f') ->
  atom_name a = atom_name a' -> atom_content p a = atom_content p a' -> a = a'.
Proof.
  intros Hs Hs' IH Hn Hc. destruct a as [s l|c l d|c|l| |b a|v w cells], a' as [s' l'|c' l' d'|c'|l'| |b' a'|v' w' cells']; cbn [atom_spelled atom_content in_atom] in *; try discriminate Hc;
    try (exfalso; destruct c; discriminate Hn); try (exfalso; destruct c'; discriminate Hn); try discriminate Hn.
  - congruence.
  - assert (E : number_symbols c l d = number_symbols c' l' d') by congruence. apply number_symbols_inj in E as (->&->&->); [reflexivity|apply Hs|apply Hs'].
  - f_equal. destruct c, c'; try reflexivity; discriminate Hn.
  - assert (E : string_symbols l = string_symbols l') by congruence. f_equal. now apply string_symbols_inj in E.
  - reflexivity.
  - injection Hc as E _. apply (IH a eq_refl) in E as [-> ->]; auto.
  - injection Hc as E ->. cbn [atom_name] in Hn.
    assert (v = v') as -> by (destruct Hs as [Hv _], Hs' as [Hv' _]; cbn in Hv, Hv'; intuition (subst; first [reflexivity|discriminate Hn])). f_equal. clear -E IH.
    revert cells' E IH. induction cells as [|[b f] cells IHc]; intros [|[b' f'] cells'] E IH; cbn [map] in E; try discriminate E; [reflexivity|]. injection E as E1 E2.
    destruct (IH f) with (b := b) (p := 0) (b' := b') (f' := f') as [-> ->]; auto; [exists b; now left|exists b'; now left|]. f_equal. apply IHc; auto.
    intros x (bx&Hx) bb pp b'' y (by_&Hy). apply IH; [exists bx; now right|exists by_; now right].
Qed.
Lemma tree_inj xs xc f : forall before p before' f', spelled xs xc f -> spelled xs xc f' -> tree before p f = tree before' p f' -> before = before' /\ f = f'.
Proof.
  induction f as [a k IHa|op k s a IHs IHa|a op k s b IHa IHs IHb|a op k IHa IHo] using formula_induction; intros before p before' f' Hs Hs' H;
    pose proof (f_equal syn_name H) as N; rewrite !tree_name in N; destruct f' as [a' k'|op' k' s' a'|a' op' k' s' b'|a' op' k'].
  - apply spelled_atom in Hs as [Hs Hi]. apply spelled_atom in Hs' as [Hs' Hi']. rewrite !tree_atom in H. apply spaced_inj in H as (E1&E2&->&_&->); try apply atom_whole.
    split; [reflexivity|]. f_equal. eapply atom_content_inj; eauto.
  - exfalso. destruct before; [destruct k|]; [destruct a as [| |[]| | | |[]]| |]; destruct op'; discriminate N.
  - exfalso. destruct before; [destruct k|]; [destruct a as [| |[]| | | |[]]| |]; destruct op'; discriminate N.
  - exfalso. apply spelled_atom in Hs as [Hs _]. destruct before; [destruct k|]; [destruct a as [| |[]| | | |[]]| |]; destruct op' as [| | |[]]; try discriminate N; cbn in Hs; intuition discriminate.
  - exfalso. destruct before'; [destruct k'|]; [destruct a' as [| |[]| | | |[]]| |]; destruct op; discriminate N.
  - apply spelled_prefix in Hs as (Hss&Ha&_). apply spelled_prefix in Hs' as (Hss'&Ha'&_). apply prefix_name_inj in N as <-. rewrite !tree_prefix in H. apply (f_equal syn_children) in H. cbn [syn_children] in H. injection H. intros E2 E1.
    unfold prefix_value in E1. apply (@scripts_inj (spelled xs xc)) in E1 as [<- E1]; [|intros f Hf b0 p0 b1 f1 Hf1; apply (IHs f Hf); auto|exact Hss'].
    apply spaced_inj in E1 as (_&_&<-&_&<-); [|split; discriminate|split; discriminate]. apply IHa in E2 as [_ <-]; auto.
  - exfalso. rewrite tree_prefix, tree_infix in H. cbv zeta in H. discriminate H.
  - exfalso. destruct op, op' as [| | |[]]; discriminate N.
  - exfalso. destruct before'; [destruct k'|]; [destruct a' as [| |[]| | | |[]]| |]; destruct op; discriminate N.
  - exfalso. rewrite tree_prefix, tree_infix in H. cbv zeta in H. discriminate H.
  - apply spelled_infix in Hs as (Ha&Hss&Hb). apply spelled_infix in Hs' as (Ha'&Hss'&Hb'). apply infix_name_inj in N as <-. rewrite !tree_infix in H. cbv zeta in H. apply (f_equal syn_children) in H. cbn [syn_children] in H. injection H. intros E3 E2 E1.
    apply IHa in E1 as [<- <-]; auto. unfold infix_value in E2. apply (@scripts_inj (spelled xs xc)) in E2 as [<- E2]; [|intros f Hf b0 p0 b1 f1 Hf1; apply (IHs f Hf); auto|exact Hss'].
    apply spaced_inj in E2 as (_&_&_&_&<-); [|split; discriminate|split; discriminate]. apply IHb in E3 as [_ <-]; auto.
  - exfalso. destruct op, op' as [| | |[]]; discriminate N.
  - exfalso. apply spelled_atom in Hs' as [Hs' _]. destruct before'; [destruct k'|]; [destruct a' as [| |[]| | | |[]]| |]; destruct op as [| | |[]]; try discriminate N; cbn in Hs'; intuition discriminate.
  - exfalso. destruct op as [| | |[]], op'; discriminate N.
  - exfalso. destruct op as [| | |[]], op'; discriminate N.
  - apply spelled_postfix in Hs as (Ha&Hi). apply spelled_postfix in Hs' as (Ha'&Hi'). rewrite !tree_postfix in H. apply (f_equal syn_children) in H. cbn [syn_children] in H. injection H. intros E2 E1.
    apply IHa in E1 as [<- <-]; auto. apply spaced_inj in E2 as (_&E2&_&_&<-); [|split; discriminate|split; discriminate]. split; [reflexivity|]. f_equal.
    destruct op as [| |e x|u e x], op' as [| |e' x'|u' e' x']; try discriminate E2; try (exfalso; destruct u; discriminate N); try (exfalso; destruct u'; discriminate N); try reflexivity; try discriminate N.
    + injection E2 as E2 _. apply (IHo x eq_refl) in E2 as [<- <-]; [reflexivity|now apply Hi|now apply Hi'].
    + assert (u = u') as <- by (destruct u, u'; try reflexivity; discriminate N). injection E2 as E2. apply (IHo x eq_refl) in E2 as [<- <-]; [reflexivity|now apply Hi|now apply Hi'].
Qed.
Theorem written_inj xs xc before f before' f' : classes_ok xs xc -> spelled xs xc f -> spelled xs xc f' -> conventional 0 0 f -> conventional 0 0 f' ->
  spaces before ++ written f = spaces before' ++ written f' -> before = before' /\ f = f'.
Proof.
  intros HC Hs Hs' Hc Hc' H. pose proof (formula_parse HC before Hs Hc) as E. pose proof (formula_parse HC before' Hs' Hc') as E'. rewrite H, E' in E.
  apply (@tree_inj xs xc f before 0 before' f' Hs Hs'). congruence.
Qed.

(** ** Spaces do not matter *)
Transparent spaced.
Definition bare_children (c : SyntaxNodeChildren) : SyntaxNodeChildren :=
  match c with
  | Children l => Children (flat_map (fun m => if path_eqb (syn_name m) (named "BuiltIn" "Whitespace") then [] else [bare m]) l)
  | NewRows g => NewRows (mkGrid (map bare (gvalues g)) (gwidth g))
  | Leaf ty l => Leaf ty l
  end.
Lemma path_neqb a b : a <> b -> path_eqb a b = false.
Proof. intros H. destruct (path_eqb a b) eqn:E; [|reflexivity]. apply path_eqb_eq in E. contradiction. Qed.
Lemma bare_whole name c p q : whole name -> bare (mkSyntax name c p q) = mkSyntax name (bare_children c) 0 0.
Proof.
  intros [_ H]. cbn [bare]. cbv zeta. rewrite (path_neqb H). fold (bare_children c). destruct (bare_children c) as [gr|[|m [|m' l]]|ty l]; reflexivity.
Qed.
Lemma bare_blank k p : flat_map (fun m => if path_eqb (syn_name m) (named "BuiltIn" "Whitespace") then [] else [bare m]) (blank k p) = [].
Proof. destruct k as [|k]; [reflexivity|]. cbn [blank flat_map syn_name]. now rewrite (proj2 (path_eqb_eq _ _) eq_refl). Qed.
Lemma bare_spaced name c p before len after : whole name -> bare (spaced name c p before len after) = mkSyntax name (bare_children c) 0 0.
Proof.
  intros H. unfold spaced.
  assert (W : bare (mkSyntax (named "BuiltIn" "Whitespaces") (Children (blank before p ++ mkSyntax name c (p + before) (p + before + len) :: blank after (p + before + len))) p (p + before + len + after)) =
    mkSyntax name (bare_children c) 0 0).
  { cbn [bare]. cbv zeta. rewrite flat_map_app, bare_blank. cbn [flat_map app]. rewrite bare_blank, app_nil_r. cbn [syn_name]. rewrite (path_neqb (proj1 H)).
    rewrite (proj2 (path_eqb_eq _ _) eq_refl). fold (bare (mkSyntax name c (p + before) (p + before + len))). now apply (@bare_whole name c (p + before) (p + before + len)). }
  destruct before; [destruct after|]; [now apply bare_whole|exact W|exact W].
Qed.
Lemma spaced_not_blank name c p before len after : whole name -> path_eqb (syn_name (spaced name c p before len after)) (named "BuiltIn" "Whitespace") = false.
Proof. intros [H _]. apply path_neqb. rewrite spaced_name. destruct before, after; auto; discriminate. Qed.
Lemma tree_not_blank before p f : path_eqb (syn_name (tree before p f)) (named "BuiltIn" "Whitespace") = false.
Proof.
  apply path_neqb. rewrite tree_name. destruct f as [a k|op k s a|a op k s b|a op k].
  - destruct before; [destruct k|]; [apply atom_whole|discriminate|discriminate].
  - destruct op; discriminate.
  - destruct op; discriminate.
  - destruct op as [| | |[]]; discriminate.
Qed.
Lemma scripts_not_blank s n : path_eqb (syn_name n) (named "BuiltIn" "Whitespace") = false -> path_eqb (syn_name (scripts_tree s n)) (named "BuiltIn" "Whitespace") = false.
Proof.
  revert n. induction s as [|[[[u b] a] k] s IH]; intros n H; [exact H|]. cbn [scripts_tree fold_left]. apply IH. cbn [script_tree syn_name]. destruct u; reflexivity.
Qed.
Definition squeeze_scripts (s : Scripts Formula) : Scripts Formula := map (fun '(u, _, a, _) => (u, 0, squeeze a, 0)) s.
Definition same_bare (f : Formula) : Prop := forall before p before' p', bare (tree before p f) = bare (tree before' p' (squeeze f)).
Lemma operator_whole : whole operator_name.
Proof. split; discriminate. Qed.
Lemma bare_children_one n : path_eqb (syn_name n) (named "BuiltIn" "Whitespace") = false -> forall l,
  flat_map (fun m => if path_eqb (syn_name m) (named "BuiltIn" "Whitespace") then [] else [bare m]) (n :: l) = bare n :: flat_map (fun m => if path_eqb (syn_name m) (named "BuiltIn" "Whitespace") then [] else [bare m]) l.
Proof. intros H l. cbn [flat_map]. now rewrite H. Qed.
Lemma bare_scripts s : (forall f, in_scripts f s -> same_bare f) -> forall n n', bare n = bare n' ->
  path_eqb (syn_name n) (named "BuiltIn" "Whitespace") = false -> path_eqb (syn_name n') (named "BuiltIn" "Whitespace") = false ->
  bare (scripts_tree s n) = bare (scripts_tree (squeeze_scripts s) n').
Proof.
  induction s as [|[[[u b] a] k] s IH]; intros Hs n n' E B B'; [exact E|]. cbn [squeeze_scripts map scripts_tree fold_left].
  apply IH; [intros f (u'&b'&k'&Hf); apply Hs; exists u', b', k'; now right| |destruct u; reflexivity|destruct u; reflexivity].
  cbn [script_tree]. rewrite !bare_whole by (destruct u; split; discriminate). f_equal. cbn [bare_children]. f_equal.
  rewrite !bare_children_one by (try assumption; apply spaced_not_blank, operator_whole). cbn [flat_map]. rewrite !bare_spaced by apply operator_whole. cbn [bare_children gvalues gwidth map].
  rewrite E. rewrite (Hs a) with (before' := 0) (p' := 0) by (exists u, b, k; now left). reflexivity.
Qed.
Definition squeeze_atom (a : Atom Formula) : Atom Formula :=
  match a with
  | ABrackets _ a => ABrackets 0 (squeeze a)
  | ACells v w cells => ACells v w (map (fun '(_, a) => (0, squeeze a)) cells)
  | a => a
  end.
Definition squeeze_postfix (op : Postfix Formula) : Postfix Formula :=
  match op with
  | PApply _ b => PApply 0 (squeeze b)
  | PScript u _ b => PScript u 0 (squeeze b)
  | op => op
  end.
Lemma bare_brackets p p' b f : same_bare f -> bare_children (in_brackets p (tree b (S p) f)) = bare_children (in_brackets p' (tree 0 (S p') (squeeze f))).
Proof.
  intros H. unfold in_brackets. cbn [bare_children]. rewrite !bare_children_one by (try reflexivity; apply tree_not_blank). cbn [flat_map].
  rewrite (H b (S p) 0 (S p')). unfold op_leaf. rewrite !bare_whole by apply operator_whole. reflexivity.
Qed.
Lemma bare_tree f : same_bare f.
Proof.
  induction f as [a k IHa|op k s a IHs IHa|a op k s b IHa IHs IHb|a op k IHa IHo] using formula_induction; intros before p before' p'.
  - assert (Es : squeeze (FAtom a k) = FAtom (squeeze_atom a) 0) by (destruct a; reflexivity). rewrite Es, !tree_atom, !bare_spaced by apply atom_whole.
    assert (En : atom_name (squeeze_atom a) = atom_name a) by (destruct a; reflexivity). rewrite En. f_equal.
    generalize (p + before) (p' + before'). intros q q'. destruct a as [s l|c l d|c|l| |b a|v w cells]; cbn [squeeze_atom atom_content]; try reflexivity.
    + now apply bare_brackets, IHa.
    + cbn [bare_children gvalues gwidth]. do 2 f_equal. rewrite !map_map. apply map_ext_in. intros [b f] Hf. apply IHa. cbn. eauto.
  - change (squeeze (FPrefix op k s a)) with (FPrefix op 0 (squeeze_scripts s) (squeeze a)). rewrite !tree_prefix, !bare_whole by (destruct op; split; discriminate). f_equal.
    cbn [bare_children]. f_equal. unfold prefix_value at 1 3. rewrite !bare_children_one by first [apply tree_not_blank|apply scripts_not_blank, spaced_not_blank, operator_whole]. cbn [flat_map]. f_equal; [|f_equal; apply IHa].
    apply bare_scripts; auto; try (apply spaced_not_blank, operator_whole). now rewrite !bare_spaced by apply operator_whole.
  - change (squeeze (FInfix a op k s b)) with (FInfix (squeeze a) op 0 (squeeze_scripts s) (squeeze b)). rewrite !tree_infix. cbv zeta. rewrite !bare_whole by (destruct op; split; discriminate). f_equal.
    cbn [bare_children]. f_equal. unfold infix_value at 1 3. rewrite !bare_children_one by first [apply tree_not_blank|apply scripts_not_blank, spaced_not_blank, operator_whole]. cbn [flat_map].
    f_equal; [apply IHa|]. f_equal; [|f_equal; apply IHb].
    apply bare_scripts; auto; try (apply spaced_not_blank, operator_whole). now rewrite !bare_spaced by apply operator_whole.
  - assert (Es : squeeze (FPostfix a op k) = FPostfix (squeeze a) (squeeze_postfix op) 0) by (destruct op; reflexivity). rewrite Es, !tree_postfix.
    rewrite !bare_whole by (destruct op as [| | |[]]; split; discriminate). assert (En : postfix_name (squeeze_postfix op) = postfix_name op) by (destruct op; reflexivity). rewrite En. f_equal.
    cbn [bare_children]. f_equal. unfold postfix_value. rewrite !bare_children_one by first [apply tree_not_blank|apply spaced_not_blank, operator_whole]. cbn [flat_map].
    f_equal; [apply IHa|]. f_equal. rewrite !bare_spaced by apply operator_whole. f_equal.
    generalize (p + before + width a) (p' + before' + width (squeeze a)). intros q q'. destruct op as [| |b f|u b f]; cbn [squeeze_postfix postfix_content]; try reflexivity.
    + now apply bare_brackets, IHo.
    + cbn [bare_children gvalues gwidth map]. do 3 f_equal. now apply IHo.
Qed.
Theorem spaces_irrelevant xs xc before f before' f' : classes_ok xs xc -> spelled xs xc f -> spelled xs xc f' -> conventional 0 0 f -> conventional 0 0 f' -> squeeze f = squeeze f' ->
  exists n n', parse (default_grammar xs xc) (spaces before ++ written f) = Ok n /\ parse (default_grammar xs xc) (spaces before' ++ written f') = Ok n' /\ bare n = bare n'.
Proof.
  intros HC Hs Hs' Hc Hc' E. eexists _, _. split; [now apply formula_parse|]. split; [now apply formula_parse|].
  rewrite (bare_tree f before 0 0 0), (bare_tree f' before' 0 0 0). now rewrite E.
Qed.
