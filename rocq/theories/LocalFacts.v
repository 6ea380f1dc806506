(** How a row is read does not depend on what is inside of its containers. *)
From Coq Require Import String.
From Verif Require Import Base Str Grid Node Autocomplete NameMap Syntax SyntaxFind Pratt Spec SpecSyntax SpecLocal BaseFacts TreeFacts EditFacts ParseFacts ParseTotal FindFacts.
Open Scope list_scope.
Open Scope nat_scope.
Set Implicit Arguments.
Unset Strict Implicit.

(** ** Relations between results *)
(** Results that are not panics are related. *)
Definition rel {A} (R : A -> A -> Prop) (r r' : Res A) : Prop := forall a a', r = Ok a -> r' = Ok a' -> R a a'.
Inductive orel {A} (R : A -> A -> Prop) : option A -> option A -> Prop :=
| orel_none : orel R None None
| orel_some a a' : R a a' -> orel R (Some a) (Some a').
Definition prel {A B} (R : A -> A -> Prop) (S : B -> B -> Prop) (p p' : A * B) : Prop := R (fst p) (fst p') /\ S (snd p) (snd p').
Definition irel : Input -> Input -> Prop := prel eq (Forall2 alike).
Definition parsed {A} (R : A -> A -> Prop) : PRes A -> PRes A -> Prop := rel (orel (prel R irel)).
Lemma rel_ok A (R : A -> A -> Prop) a a' : R a a' -> rel R (Ok a) (Ok a').
Proof. intros H x x' E E'. inv E. inv E'. exact H. Qed.
Lemma rel_panic A (R : A -> A -> Prop) k r : rel R (Panic k) r.
Proof. intros x x' E. discriminate E. Qed.
Lemma rel_bind A B (R : A -> A -> Prop) (S : B -> B -> Prop) r r' (f f' : A -> Res B) :
  rel R r r' -> (forall a a', R a a' -> rel S (f a) (f' a')) -> rel S (bind r f) (bind r' f').
Proof. intros H Hf x x' E E'. apply bind_ok in E as (a&Ea&E). apply bind_ok in E' as (a'&Ea'&E'). exact (Hf _ _ (H _ _ Ea Ea') _ _ E E'). Qed.
Lemma rel_pbind A B (R : A -> A -> Prop) (S : B -> B -> Prop) (r r' : PRes A) f f' :
  parsed R r r' -> (forall a a' i i', R a a' -> irel i i' -> parsed S (f a i) (f' a' i')) -> parsed S (pbind r f) (pbind r' f').
Proof.
  intros H Hf. eapply rel_bind; [exact H|]. intros o o' [|[a i] [a' i'] [Ha Hi]]; [apply rel_ok; constructor|]. now apply Hf.
Qed.
Lemma alike_refl n : alike n n.
Proof. destruct n as [v [cells w]|s]; constructor. reflexivity. Qed.

Lemma same_length A (R : A -> A -> Prop) l l' : Forall2 R l l' -> length l = length l'.
Proof. induction 1; cbn; congruence. Qed.

(** ** Nodes *)
Inductive crel : SyntaxNodeChildren -> SyntaxNodeChildren -> Prop :=
| crel_children l l' : same_outlines l l' -> crel (Children l) (Children l')
| crel_leaf ty symbols : crel (Leaf ty symbols) (Leaf ty symbols)
| crel_rows l l' w : length l = length l' -> crel (NewRows (mkGrid l w)) (NewRows (mkGrid l' w)).
Lemma outline_of name c c' s e : crel c c' -> same_outline (mkSyntax name c s e) (mkSyntax name c' s e).
Proof. intros []; constructor; assumption. Qed.
Lemma outline_range n n' : same_outline n n' -> syn_range n = syn_range n'.
Proof. intros []; reflexivity. Qed.
Lemma new_rel name r r' c c' : r = r' -> crel c c' -> rel same_outline (syntax_node_new name r c) (syntax_node_new name r' c').
Proof.
  intros <- H n n' E E'. unfold syntax_node_new in *. apply bind_ok in E as (o&_&E). apply bind_ok in E as (u&_&E). inv E.
  apply bind_ok in E' as (o'&_&E'). apply bind_ok in E' as (u'&_&E'). inv E'. now apply outline_of.
Qed.
Lemma new_leaf_rel name r r' ty l : r = r' -> rel same_outline (syntax_node_new name r (Leaf ty l)) (syntax_node_new name r' (Leaf ty l)).
Proof. intros H. apply new_rel; [exact H|constructor]. Qed.
Lemma span_rel i i' j j' : irel i i' -> irel j j' -> span i j = span i' j'.
Proof. intros [H _] [H' _]. unfold span. now rewrite H, H'. Qed.
Ltac outlines := repeat match goal with |- same_outlines _ _ => constructor | |- crel (Children _) (Children _) => constructor end; auto.
Lemma infix_rel name a a' l l' r r' : same_outline a a' -> same_outline l l' -> same_outline r r' -> rel same_outline (build_infix name a l r) (build_infix name a' l' r').
Proof. intros Ha Hl Hr. apply new_rel; [now rewrite (outline_range Ha), (outline_range Hl), (outline_range Hr)|outlines]. Qed.
Lemma prefix_rel name a a' r r' : same_outline a a' -> same_outline r r' -> rel same_outline (build_prefix name a r) (build_prefix name a' r').
Proof. intros Ha Hr. apply new_rel; [now rewrite (outline_range Ha), (outline_range Hr)|outlines]. Qed.
Lemma postfix_rel name a a' l l' : same_outline a a' -> same_outline l l' -> rel same_outline (build_postfix name a l) (build_postfix name a' l').
Proof. intros Ha Hl. apply new_rel; [now rewrite (outline_range Ha), (outline_range Hl)|outlines]. Qed.
Lemma missing_token_rel k k' : k = k' -> rel same_outline (missing_token k) (missing_token k').
Proof. intros <-. apply new_rel; [reflexivity|outlines]. Qed.
Lemma missing_operator_rel a a' b b' : same_outline a a' -> same_outline b b' -> rel same_outline (missing_operator a b) (missing_operator a' b').
Proof.
  intros Ha Hb. eapply rel_bind; [apply missing_token_rel; now rewrite (outline_range Ha)|]. intros m m' Hm. apply new_rel; [now rewrite (outline_range Ha), (outline_range Hb)|outlines].
Qed.
Lemma unknown_rel k k' n n' : k = k' -> alike n n' -> rel same_outline (unknown_token k n) (unknown_token k' n').
Proof. intros <- [s|]; [now apply new_leaf_rel|apply rel_panic]. Qed.
Lemma whitespaces_rel b b' n n' a a' r r' : orel same_outline b b' -> same_outline n n' -> orel same_outline a a' -> r = r' ->
  rel same_outline (whitespaces_node b n a r) (whitespaces_node b' n' a' r').
Proof. intros [] Hn [] Hr; cbn [whitespaces_node]; try (apply new_rel; [exact Hr|outlines]). now apply rel_ok. Qed.

(** ** Symbols *)
Lemma just_symbol_rel s i i' : irel i i' -> orel (prel eq irel) (just_symbol s i) (just_symbol s i').
Proof.
  destruct i as [o r], i' as [o' r']. intros [Ho Hr]. cbn in Ho, Hr. subst o'. unfold just_symbol. cbn [snd fst].
  destruct Hr as [|n n' r r' [t|] Hr]; try constructor. destruct (str_eqb t s); constructor. split; [reflexivity|]. split; [reflexivity|exact Hr].
Qed.
Lemma just_symbols_rel l : forall i i', irel i i' -> orel (prel eq irel) (just_symbols l i) (just_symbols l i').
Proof.
  induction l as [|s l IH]; intros i i' H; cbn [just_symbols]; [constructor; split; [reflexivity|exact H]|].
  destruct (just_symbol_rel s H) as [|[a j] [a' j'] [Ha Hj]]; [constructor|]. cbn in Ha, Hj. subst a'. destruct (IH _ _ Hj) as [|[b k] [b' k'] [Hb Hk]]; constructor. cbn in Hb, Hk. subst b'. split; [reflexivity|exact Hk].
Qed.
Lemma select_rel p i i' : irel i i' -> orel (prel eq irel) (select_symbol p i) (select_symbol p i').
Proof.
  destruct i as [o r], i' as [o' r']. intros [Ho Hr]. cbn in Ho, Hr. subst o'. unfold select_symbol. cbn [snd fst].
  destruct Hr as [|n n' r r' [t|] Hr]; try constructor. destruct (p t); constructor. split; [reflexivity|]. split; [reflexivity|exact Hr].
Qed.
Lemma take_symbols_rel p r r' : Forall2 alike r r' -> forall o, prel eq irel (take_symbols p o r) (take_symbols p o r').
Proof.
  induction 1 as [|n n' r r' Hn Hr IH]; intros o; [repeat split; constructor|].
  destruct Hn as [t|v cells cells' w L]; cbn [take_symbols].
  - destruct (p t); [|repeat split; constructor; auto using alike_refl]. specialize (IH (S o)). destruct (take_symbols p (S o) r), (take_symbols p (S o) r'). destruct IH as [E H]. cbn in E. subst. split; [reflexivity|exact H].
  - split; [reflexivity|]. split; [reflexivity|]. constructor; [now constructor|exact Hr].
Qed.
Lemma repeat_rel p i i' : irel i i' -> prel eq irel (repeat_symbols p i) (repeat_symbols p i').
Proof. intros [Ho Hr]. unfold repeat_symbols. rewrite Ho. now apply take_symbols_rel. Qed.
Lemma take_string_rel m : forall r r', length r <= m -> Forall2 alike r r' -> forall o, prel eq irel (take_string o r) (take_string o r').
Proof.
  induction m as [|m IH]; intros r r' L H o; [destruct H; [repeat split; constructor|cbn in L; lia]|]. destruct H as [|n n' r r' Hn Hr]; [repeat split; constructor|]. cbn in L.
  assert (Hall : Forall2 alike (n :: r) (n' :: r')) by (constructor; assumption).
  destruct Hn as [t|v cells cells' w Lc]; cbn [take_string]; [|split; [reflexivity|]; split; [reflexivity|exact Hall]].
  destruct (str_eqb t (lit "\")).
  - destruct Hr as [|n2 n2' r2 r2' [t2|v cells cells' w Lc] Hr]; try (split; [reflexivity|]; split; [reflexivity|exact Hall]). cbn in L.
    pose proof (IH r2 r2' ltac:(lia) Hr (S (S o))) as X. destruct (take_string (S (S o)) r2), (take_string (S (S o)) r2'). destruct X as [E H]. cbn in E. subst. split; [reflexivity|exact H].
  - destruct (str_eqb t (lit """")); [split; [reflexivity|]; split; [reflexivity|exact Hall]|].
    pose proof (IH r r' ltac:(lia) Hr (S o)) as X. destruct (take_string (S o) r), (take_string (S o) r'). destruct X as [E H]. cbn in E. subst. split; [reflexivity|exact H].
Qed.
Lemma number_rel i i' : irel i i' -> orel (prel eq irel) (parse_number i) (parse_number i').
Proof.
  intros H. unfold parse_number. pose proof (repeat_rel is_digits H) as X. destruct (repeat_symbols is_digits i) as [a i1], (repeat_symbols is_digits i') as [a' i1']. destruct X as [E H1]. cbn in E, H1. subst a'.
  destruct a as [|a0 a]; [constructor|]. destruct (just_symbol_rel (lit ".") H1) as [|[c i2] [c' i2'] [Ec H2]]; [constructor; split; [reflexivity|exact H1]|]. cbn in Ec, H2. subst c'.
  pose proof (repeat_rel is_digits H2) as X. destruct (repeat_symbols is_digits i2) as [d i3], (repeat_symbols is_digits i2') as [d' i3']. destruct X as [E H3]. cbn in E, H3. subst d'.
  destruct d; constructor; (split; [reflexivity|]); assumption.
Qed.
Lemma variable_rel g i i' : irel i i' -> orel (prel eq irel) (parse_variable g i) (parse_variable g i').
Proof.
  intros H. unfold parse_variable. destruct (select_rel (is_identifier_start g) H) as [|[a i1] [a' i1'] [E H1]]; [constructor|]. cbn in E, H1. subst a'.
  pose proof (repeat_rel (is_identifier_continue g) H1) as X. destruct (repeat_symbols (is_identifier_continue g) i1), (repeat_symbols (is_identifier_continue g) i1'). destruct X as [E H2]. cbn in E, H2. subst. constructor. split; [reflexivity|exact H2].
Qed.
Lemma string_rel i i' : irel i i' -> orel (prel eq irel) (parse_string i) (parse_string i').
Proof.
  intros H. unfold parse_string. destruct (just_symbol_rel (lit """") H) as [|[a [o1 r1]] [a' [o1' r1']] [E [Ho H1]]]; [constructor|]. cbn in E, Ho, H1. subst a' o1'. cbn [fst snd].
  pose proof (take_string_rel (Nat.le_refl _) H1 o1) as X. destruct (take_string o1 r1) as [b i2], (take_string o1 r1') as [b' i2']. destruct X as [E H2]. cbn in E, H2. subst b'.
  destruct (just_symbol_rel (lit """") H2) as [|[c i3] [c' i3'] [Ec H3]]; constructor. cbn in Ec, H3. subst c'. split; [reflexivity|exact H3].
Qed.
Lemma spaces_rel i i' : irel i i' -> rel (prel (orel same_outline) irel) (parse_spaces i) (parse_spaces i').
Proof.
  intros H. unfold parse_spaces. pose proof (repeat_rel (fun s => str_eqb s (lit " ")) H) as X. destruct (repeat_symbols _ i) as [l i1], (repeat_symbols _ i') as [l' i1']. destruct X as [E H1]. cbn in E, H1. subst l'.
  destruct l as [|s l]; [apply rel_ok; split; [constructor|exact H1]|]. eapply rel_bind; [apply new_leaf_rel, span_rel; assumption|]. intros n n' Hn. apply rel_ok. split; [now constructor|exact H1].
Qed.
Lemma at_end_rel i i' : irel i i' -> at_end i = at_end i'.
Proof. intros [_ H]. unfold at_end. destruct H; reflexivity. Qed.
Lemma is_at_end_rel e i i' : irel i i' -> is_at_end e i = is_at_end e i'.
Proof. intros H. unfold is_at_end. rewrite (at_end_rel H). f_equal. destruct e as [|s]; [reflexivity|]. destruct (just_symbol_rel s H); reflexivity. Qed.
Lemma map_res_length A B (f : A -> Res B) l : forall r, map_res f l = Ok r -> length r = length l.
Proof. induction l as [|x l IH]; intros r H; cbn in H; [now inv H|]. apply bind_ok in H as (y&_&H). apply bind_ok in H as (r'&Hr&H). inv H. cbn. f_equal. now apply IH. Qed.

(** ** The parser *)
Section Step.
Variable g : Grammar.
Variable rec rec' : Power -> Ending -> Input -> Res (PrattResult * Input).
Definition result_rel : PrattResult * Input -> PrattResult * Input -> Prop := prel (prel eq same_outline) irel.
Hypothesis Hrec : forall p e i i', irel i i' -> rel result_rel (rec p e i) (rec' p e i').
Lemma leaf_rel ty o o' : orel (prel eq irel) o o' -> parsed crel (leaf_token ty o) (leaf_token ty o').
Proof. intros H. apply rel_ok. destruct H as [|[l i] [l' i'] [E H]]; constructor. cbn in E, H. subst l'. split; [constructor|exact H]. Qed.
Lemma token_rel t i i' : irel i i' -> parsed crel (parse_token g rec t i) (parse_token g rec' t i').
Proof.
  intros H. destruct t as [l ty|v|a b|a b| | |]; cbn [parse_token].
  - apply leaf_rel. destruct (just_symbols_rel l H) as [|[s j] [s' j'] [E Hj]]; constructor. cbn in E, Hj. subst s'. split; [reflexivity|exact Hj].
  - destruct i as [o r], i' as [o' r']. destruct H as [Ho Hr]. cbn in Ho, Hr. subst o'. cbn [snd fst]. destruct Hr as [|n n' r r' [s|v' cells cells' w L] Hr]; [apply rel_ok; constructor|apply rel_ok; constructor|].
    destruct (variant_eqb v' v); [|apply rel_ok; constructor]. intros x x' E E'. cbn [gvalues] in E, E'.
    apply bind_ok in E as (rows&E1&E). apply bind_ok in E as (w1&Ew&E). apply bind_ok in E as (gr&Eg&E). inv E.
    apply bind_ok in E' as (rows'&E1'&E'). apply bind_ok in E' as (w1'&Ew'&E'). apply bind_ok in E' as (gr'&Eg'&E'). inv E'.
    apply map_res_length in E1. apply map_res_length in E1'.
    assert (w1 = w1') as <-. { unfold gwidth_of, gsize in Ew, Ew'. cbn [gvalues gwidth] in Ew, Ew'. rewrite L in Ew. congruence. }
    constructor. split; [|split; [reflexivity|exact Hr]]. cbn [fst].
    assert (K : forall A (l : list A) wd gd, from_one_dimensional l wd = Ok gd -> gd = mkGrid l wd). { clear. intros A l wd gd H. unfold from_one_dimensional in H. repeat match type of H with context [bind] => let y := fresh in let Y := fresh in apply bind_ok in H as (y&Y&H) end. now inv H. }
    rewrite (K _ _ _ _ Eg), (K _ _ _ _ Eg'). constructor. lia.
  - destruct (just_symbol_rel a H) as [|[l i1] [l' i1'] [E H1]]; [apply rel_ok; constructor|]. cbn in E, H1. subst l'. eapply rel_bind; [apply Hrec; exact H1|].
    intros [[e n] i2] [[e' n'] i2'] [[_ Hn] H2]. cbn in Hn, H2. destruct (just_symbol_rel b H2) as [|[r i3] [r' i3'] [E H3]]; [apply rel_ok; constructor|]. cbn in E, H3. subst r'.
    eapply rel_bind; [apply new_leaf_rel, span_rel; assumption|]. intros m m' Hm. eapply rel_bind; [apply new_leaf_rel, span_rel; assumption|]. intros o o' Ho. apply rel_ok. constructor. split; [cbn [fst]; outlines|exact H3].
  - destruct (just_symbol_rel a H) as [|[l i1] [l' i1'] [E H1]]; [apply rel_ok; constructor|]. cbn in E, H1. subst l'. destruct (just_symbol_rel b H1) as [|[r i2] [r' i2'] [E H2]]; [apply rel_ok; constructor|]. cbn in E, H2. subst r'.
    eapply rel_bind; [apply new_leaf_rel, span_rel; assumption|]. intros m m' Hm. eapply rel_bind; [apply new_leaf_rel, span_rel; assumption|]. intros o o' Ho. apply rel_ok. constructor. split; [cbn [fst]; outlines|exact H2].
  - apply leaf_rel. now apply number_rel.
  - apply leaf_rel. now apply variable_rel.
  - apply leaf_rel. now apply string_rel.
Qed.
Lemma rule_rel name t i i' : irel i i' -> parsed same_outline (parse_rule g rec name t i) (parse_rule g rec' name t i').
Proof.
  intros H. eapply rel_bind; [apply spaces_rel; exact H|]. intros [b i1] [b' i1'] [Hb H1]. cbn in Hb, H1. eapply rel_pbind; [apply token_rel; exact H1|]. intros c c' i2 i2' Hc H2.
  eapply rel_bind; [apply new_rel; [apply span_rel; assumption|exact Hc]|]. intros n n' Hn. eapply rel_bind; [apply spaces_rel; exact H2|]. intros [a i3] [a' i3'] [Ha H3]. cbn in Ha, H3.
  eapply rel_bind; [apply whitespaces_rel; [exact Hb|exact Hn|exact Ha|apply span_rel; assumption]|]. intros m m' Hm. apply rel_ok. constructor. split; [exact Hm|exact H3].
Qed.
Lemma script_rel v i i' : irel i i' -> parsed same_outline (parse_script g rec v i) (parse_script g rec' v i').
Proof.
  intros H. eapply rel_pbind; [apply token_rel; exact H|]. intros c c' i1 i1' Hc H1. eapply rel_bind; [apply new_rel; [apply span_rel; assumption|exact Hc]|]. intros n n' Hn.
  eapply rel_bind; [apply spaces_rel; exact H1|]. intros [a i2] [a' i2'] [Ha H2]. cbn in Ha, H2. eapply rel_bind; [apply whitespaces_rel; [constructor|exact Hn|exact Ha|apply span_rel; assumption]|]. intros m m' Hm. apply rel_ok. constructor. split; [exact Hm|exact H2].
Qed.
Lemma scripts_rel fuel : forall n n' i i', same_outline n n' -> irel i i' -> rel (prel same_outline irel) (parse_scripts g rec fuel n i) (parse_scripts g rec' fuel n' i').
Proof.
  induction fuel as [|fuel IH]; intros n n' i i' Hn H; cbn [parse_scripts]; [apply rel_ok; split; assumption|].
  eapply rel_bind; [apply script_rel; exact H|]. intros o o' [|[a j] [a' j'] [Ha Hj]].
  - eapply rel_bind; [apply script_rel; exact H|]. intros o2 o2' [|[a j] [a' j'] [Ha Hj]]; [apply rel_ok; split; assumption|]. cbn in Ha, Hj. eapply rel_bind; [apply postfix_rel; [exact Ha|exact Hn]|]. intros m m' Hm. now apply IH.
  - cbn in Ha, Hj. eapply rel_bind; [apply postfix_rel; [exact Ha|exact Hn]|]. intros m m' Hm. now apply IH.
Qed.
Lemma op_rel op i i' : irel i i' -> parsed same_outline (parse_op g rec op i) (parse_op g rec' op i').
Proof.
  intros H. unfold parse_op.
  assert (K : parsed same_outline (pbind (parse_rule g rec operator_rule_name (op_token op) i) (fun node i1 => r <- parse_scripts g rec (length (snd i1)) node i1 ;; Ok (Some r)))
    (pbind (parse_rule g rec' operator_rule_name (op_token op) i') (fun node i1 => r <- parse_scripts g rec' (length (snd i1)) node i1 ;; Ok (Some r)))).
  { eapply rel_pbind; [apply rule_rel; exact H|]. intros n n' i1 i1' Hn H1. rewrite <- (same_length (proj2 H1)). eapply rel_bind; [apply scripts_rel; assumption|]. intros r r' Hr. apply rel_ok. now constructor. }
  destruct (op_power op); [exact K|now apply rule_rel|exact K|exact K].
Qed.
Lemma iter_rel ops : forall i i', irel i i' -> parsed (prel same_outline eq) (parse_iter g rec ops i) (parse_iter g rec' ops i').
Proof.
  induction ops as [|op ops IH]; intros i i' H; cbn [parse_iter]; [apply rel_ok; constructor|]. eapply rel_bind; [apply op_rel; exact H|]. intros o o' [|[n j] [n' j'] [Hn Hj]]; [now apply IH|].
  apply rel_ok. constructor. split; [split; [exact Hn|reflexivity]|exact Hj].
Qed.
Lemma choice_rel rules : forall i i', irel i i' -> parsed same_outline (parse_choice g rec rules i) (parse_choice g rec' rules i').
Proof.
  induction rules as [|[name t] rules IH]; intros i i' H; cbn [parse_choice]; [apply rel_ok; constructor|]. eapply rel_bind; [apply rule_rel; exact H|]. intros o o' [|x x' Hx]; [now apply IH|]. apply rel_ok. now constructor.
Qed.
Lemma can_rel A (R : A -> A -> Prop) (p p' : Input -> PRes A) i i' : parsed R (p i) (p' i') -> rel eq (can_parse p i) (can_parse p' i').
Proof. intros H. eapply rel_bind; [exact H|]. intros o o' []; now apply rel_ok. Qed.
Lemma or_rel a a' b b' : rel eq a a' -> rel eq b b' -> rel eq (or_else a b) (or_else a' b').
Proof. intros Ha Hb. eapply rel_bind; [exact Ha|]. intros x x' <-. destruct x; [now apply rel_ok|exact Hb]. Qed.
Lemma prefixes_rel i i' : irel i i' -> parsed (prel same_outline eq) (parse_prefix g rec i) (parse_prefix g rec' i'). Proof. apply iter_rel. Qed.
Lemma infixes_rel i i' : irel i i' -> parsed (prel same_outline eq) (parse_infix g rec i) (parse_infix g rec' i'). Proof. apply iter_rel. Qed.
Lemma postfixes_rel i i' : irel i i' -> parsed (prel same_outline eq) (parse_postfix g rec i) (parse_postfix g rec' i'). Proof. apply iter_rel. Qed.
Lemma atoms_rel i i' : irel i i' -> parsed same_outline (parse_atom g rec i) (parse_atom g rec' i'). Proof. apply choice_rel. Qed.
Lemma unknown_loop_rel e r r' : Forall2 alike r r' -> forall n n' o, same_outline n n' ->
  rel (prel same_outline irel) (unknown_loop g rec e n o r) (unknown_loop g rec' e n' o r').
Proof.
  induction 1 as [|x x' r r' Hx Hr IH]; intros n n' o Hn; cbn [unknown_loop].
  - change (is_at_end e (o, [])) with true. cbn [bind]. apply rel_ok. split; [exact Hn|]. split; [reflexivity|constructor].
  - assert (H : irel (o, x :: r) (o, x' :: r')) by (split; [reflexivity|now constructor]). rewrite (is_at_end_rel e H). apply (rel_bind (R := eq)).
    + destruct (is_at_end e (o, x' :: r')); [now apply rel_ok|]. repeat apply or_rel; eapply can_rel; [now apply prefixes_rel|now apply atoms_rel|now apply infixes_rel|now apply postfixes_rel].
    + intros b b' <-. destruct b; [apply rel_ok; split; [exact Hn|exact H]|]. eapply rel_bind; [apply unknown_rel; [reflexivity|exact Hx]|]. intros m m' Hm.
      eapply rel_bind; [apply missing_operator_rel; [exact Hn|exact Hm]|]. intros q q' Hq. now apply IH.
Qed.
Lemma parse_unknown_rel e i i' : irel i i' -> rel (prel same_outline irel) (parse_unknown g rec e i) (parse_unknown g rec' e i').
Proof.
  destruct i as [o r], i' as [o' r']. intros [Ho Hr]. cbn in Ho, Hr. subst o'. unfold parse_unknown. cbn [snd fst]. destruct Hr as [|n n' r r' Hn Hr]; [apply rel_panic|].
  eapply rel_bind; [apply unknown_rel; [reflexivity|exact Hn]|]. intros m m' Hm. now apply unknown_loop_rel.
Qed.
Lemma rel_result b b' n n' i i' : b = b' -> same_outline n n' -> irel i i' -> rel result_rel (Ok ((b, n), i)) (Ok ((b', n'), i')).
Proof. intros Hb Hn Hi. apply rel_ok. split; [split; assumption|exact Hi]. Qed.
Lemma first_rel e i i' : irel i i' -> rel result_rel (pratt_first g rec e i) (pratt_first g rec' e i').
Proof.
  intros H. unfold pratt_first. rewrite (at_end_rel H).
  assert (M : forall b, rel result_rel (n <- missing_token (fst i) ;; Ok ((b, n), i)) (n <- missing_token (fst i') ;; Ok ((b, n), i'))).
  { intros b. eapply rel_bind; [apply missing_token_rel; apply H|]. intros n n' Hn. now apply rel_result. }
  destruct (at_end i'); [apply M|]. eapply rel_bind; [apply prefixes_rel; exact H|]. intros o o' [|[[v op] i1] [[v' op'] i1'] [[Hv Hop] H1]].
  - eapply rel_bind; [apply atoms_rel; exact H|]. intros o2 o2' [|[n i1] [n' i1'] [Hn H1]]; [|now apply rel_result].
    apply (rel_bind (R := eq)); [apply or_rel; eapply can_rel; [now apply infixes_rel|now apply postfixes_rel]|]. intros b b' <-. destruct b; [apply M|]. rewrite (is_at_end_rel e H). destruct (is_at_end e i'); [apply M|].
    eapply rel_bind; [apply parse_unknown_rel; exact H|]. intros [n i1] [n' i1'] [Hn H1]. now apply rel_result.
  - cbn in Hv, Hop, H1. subst op'. eapply rel_bind; [apply Hrec; exact H1|]. intros [[b n] i2] [[b' n'] i2'] [[Hb Hn] H2]. cbn in Hb, Hn, H2. eapply rel_bind; [apply prefix_rel; [exact Hv|exact Hn]|]. intros m m' Hm. now apply rel_result.
Qed.
Lemma loop_rel min e fuel : forall fuel' n n' i i', same_outline n n' -> irel i i' -> rel result_rel (pratt_loop g rec fuel min e n i) (pratt_loop g rec' fuel' min e n' i').
Proof.
  induction fuel as [|fuel IH]; intros [|fuel'] n n' i i' Hn H; cbn [pratt_loop]; try apply rel_panic; [intros x x' _ E; discriminate E|]. rewrite (at_end_rel H). destruct (at_end i'); [now apply rel_result|].
  eapply rel_bind; [apply infixes_rel; exact H|]. intros o o' [|[[v op] i1] [[v' op'] i1'] [[Hv Hop] H1]].
  - eapply rel_bind; [apply postfixes_rel; exact H|]. intros o2 o2' [|[[v op] i1] [[v' op'] i1'] [[Hv Hop] H1]].
    + apply (rel_bind (R := eq)); [apply or_rel; eapply can_rel; [now apply prefixes_rel|now apply atoms_rel]|]. intros b b' <-. destruct b.
      * destruct (power_ltb _ min); [now apply rel_result|]. eapply rel_bind; [apply Hrec; exact H|]. intros [[b m] i2] [[b' m'] i2'] [[Hb Hm] H2]. cbn in Hb, Hm, H2. subst b'.
        eapply rel_bind; [apply missing_operator_rel; [exact Hn|exact Hm]|]. intros q q' Hq. destruct b; [now apply rel_result|now apply IH].
      * rewrite (is_at_end_rel e H). destruct (is_at_end e i'); [now apply rel_result|]. eapply rel_bind; [apply parse_unknown_rel; exact H|]. intros [m i2] [m' i2'] [Hm H2]. cbn in Hm, H2.
        eapply rel_bind; [apply missing_operator_rel; [exact Hn|exact Hm]|]. intros q q' Hq. now apply IH.
    + cbn in Hv, Hop, H1. subst op'. destruct (power_ltb _ min); [now apply rel_result|]. eapply rel_bind; [apply postfix_rel; [exact Hv|exact Hn]|]. intros q q' Hq. now apply IH.
  - cbn in Hv, Hop, H1. subst op'. destruct (power_ltb _ min); [now apply rel_result|]. eapply rel_bind; [apply Hrec; exact H1|]. intros [[b m] i2] [[b' m'] i2'] [[Hb Hm] H2]. cbn in Hb, Hm, H2. subst b'.
    eapply rel_bind; [apply infix_rel; [exact Hv|exact Hn|exact Hm]|]. intros q q' Hq. destruct b; [now apply rel_result|now apply IH].
Qed.
Lemma step_rel min e i i' : irel i i' -> rel result_rel (pratt_step g rec min e i) (pratt_step g rec' min e i').
Proof.
  intros H. eapply rel_bind; [apply first_rel; exact H|]. intros [[b n] i1] [[b' n'] i1'] [[Hb Hn] H1]. cbn in Hb, Hn, H1. subst b'. destruct b; [now apply rel_result|]. now apply loop_rel.
Qed.
End Step.
Lemma pratt_rel g f : forall f' p e i i', irel i i' -> rel result_rel (pratt_parse g f p e i) (pratt_parse g f' p e i').
Proof.
  induction f as [|f IH]; intros [|f'] p e i i' H; cbn [pratt_parse]; try apply rel_panic; [intros x x' _ E; discriminate E|]. apply step_rel; [|exact H]. intros p0 e0 j j' Hj. now apply IH.
Qed.
Theorem parse_outline g doc doc' n n' : Forall2 alike doc doc' -> parse g doc = Ok n -> parse g doc' = Ok n' -> same_outline n n'.
Proof.
  intros H E E'. unfold parse, parse_row_with in *. apply bind_ok in E as ([[b m] i]&Hm&E). apply bind_ok in E' as ([[b' m'] i']&Hm'&E').
  assert (Hi : irel (0, doc) (0, doc')) by (split; [reflexivity|exact H]). destruct (pratt_rel Hi Hm Hm') as [[_ K] _]. cbn in K. destruct (at_end i); [|discriminate E]. destruct (at_end i'); [|discriminate E']. now inv E; inv E'.
Qed.

(** ** An edit in a row *)
Section Edit.
Variable Q : InputRow -> SyntaxNode -> Prop.
Variable left right : InputRow.
Variable v : InputNodeVariant.
Variable before after : list InputRow.
Variable cell cell' : InputRow.
Variable w : nat.
Variable p : RowIndices.
Variable a b : SyntaxNode.
Notation doc := (left ++ Container v (mkGrid (before ++ cell :: after) w) :: right).
Notation doc' := (left ++ Container v (mkGrid (before ++ cell' :: after) w) :: right).
Notation k := (length left).
Notation j := (length before).
Hypothesis HQ : forall n n', Q cell n -> Q cell' n' -> tree_replaced p a b n n'.
Hypothesis Hfun : forall i v cells w c n n', nth_error doc i = Some (Container v (mkGrid cells w)) -> In c cells -> Q c n -> Q c n' -> n = n'.
Lemma elsewhere i : i <> k -> nth_error doc i = nth_error doc' i.
Proof.
  intros H. destruct (Nat.lt_ge_cases i k) as [L|L]; [now rewrite !nth_error_app1|]. rewrite !nth_error_app2 by exact L. destruct (i - k) as [|m] eqn:E; [lia|reflexivity].
Qed.
Lemma there : nth_error doc k = Some (Container v (mkGrid (before ++ cell :: after) w)) /\ nth_error doc' k = Some (Container v (mkGrid (before ++ cell' :: after) w)).
Proof. split; (rewrite nth_error_app2, Nat.sub_diag; [reflexivity|apply le_n]). Qed.
Lemma cells_same cells nodes nodes' : (forall c n n', In c cells -> Q c n -> Q c n' -> n = n') -> Forall2 Q cells nodes -> Forall2 Q cells nodes' -> nodes = nodes'.
Proof.
  intros H F. revert nodes'. induction F as [|c n cells nodes Hc F IH]; intros nodes' F'; inversion F' as [|c0 n' cells0 nodes0 Hc' F0]; subst; [reflexivity|]. f_equal; [exact (H _ _ _ (or_introl eq_refl) Hc Hc')|].
  apply IH; [intros c1 n1 n1' Hin; apply H; now right|exact F0].
Qed.
Lemma trees_differ :
  (forall row s e n, gtree Q row s e n -> row = doc -> forall n', gtree Q doc' s e n' -> same_outline n n' ->
     (~ (s <= k < e) -> n = n') /\ (s <= k < e -> tree_replaced ((k, j) :: p) a b n n')) /\
  (forall row s e l, gtiles Q row s e l -> row = doc -> forall l', gtiles Q doc' s e l' -> same_outlines l l' ->
     (~ (s <= k < e) -> l = l') /\ (s <= k < e -> exists l1 c c' l2, l = l1 ++ c :: l2 /\ l' = l1 ++ c' :: l2 /\ in_range c k = true /\ tree_replaced ((k, j) :: p) a b c c')).
Proof.
  apply gtree_mutind.
  - intros row s e name l Hl IH -> n' G O. inversion O as [name0 l0 l' s0 e0 O'| |]; subst. inversion G; subst. destruct (IH eq_refl l') as [I1 I2]; [assumption|assumption|]. split.
    + intros H. now rewrite (I1 H).
    + intros H. destruct (I2 H) as (l1&c&c'&l2&->&->&Hr&Ht). now constructor.
  - intros row s name ty symbols l tail E Hl Hc -> n' G O. inversion O; subst. split; [reflexivity|]. intros Hk. exfalso. pose proof (proj1 there) as En.
    assert (E' : nth_error (skipn s doc) (k - s) = nth_error doc k).
    { rewrite <- (firstn_skipn s doc) at 2. rewrite nth_error_app2; rewrite firstn_length; [f_equal; apply nth_error_Some_lt in En; lia|lia]. }
    rewrite E, En, nth_error_app1, nth_error_map in E' by (rewrite map_length; lia). destruct (nth_error l (k - s)); discriminate.
  - intros row s name v' cells w' nodes En F -> n' G O. inversion O as [| |name0 l0 l' w0 s0 e0 L]; subst. inversion G as [| |row1 s1 name1 v1 cells1 w1 nodes1 En1 F1]; subst. split.
    + intros H. assert (Hs : s <> k) by lia. rewrite (elsewhere Hs) in En. rewrite En in En1. injection En1 as <- <-. rewrite <- (elsewhere Hs) in En.
      rewrite (@cells_same cells nodes l') ; [reflexivity| |exact F|exact F1]. intros c n n' Hin. exact (@Hfun s v' cells w' c n n' En Hin).
    + intros H. assert (s = k) as -> by lia. rewrite (proj1 there) in En. injection En as <- <- <-. rewrite (proj2 there) in En1. injection En1 as <- <-.
      apply Forall2_app_inv_l in F as (n1&n2&F1a&F2a&->). apply Forall2_app_inv_l in F1 as (m1&m2&G1&G2&->).
      inversion F2a as [|x1 y1 l1 l2 Hy F3]; subst. inversion G2 as [|x2 y2 l3 l4 Hy' G3]; subst.
      assert (n1 = m1) as ->. { eapply cells_same; [|exact F1a|exact G1]. intros c n n' Hin. eapply (@Hfun k); [exact (proj1 there)|]. apply in_or_app. now left. }
      assert (l2 = l4) as ->. { eapply cells_same; [|exact F3|exact G3]. intros c n n' Hin. eapply (@Hfun k); [exact (proj1 there)|]. apply in_or_app. right. now right. }
      assert (length before = length m1) as -> by (clear - G1; induction G1; cbn; congruence). constructor. now apply HQ.
  - intros row s -> l' G O. inversion O; subst. split; [reflexivity|]. intros H. lia.
  - intros row s m e n l Cn IHn Cl IHl -> l' G O. inversion O as [|n0 n' l0 l1 On Ol]; subst. inversion G as [|row1 s1 m' e1 n1 l2 Cn' Cl']; subst.
    assert (m = m') as <-. { pose proof (gtree_range Cn) as R. rewrite (outline_range On), (gtree_range Cn') in R. now injection R. }
    destruct (IHn eq_refl _ Cn' On) as [A1 A2]. destruct (IHl eq_refl _ Cl' Ol) as [B1 B2]. pose proof (gtree_le Cn). pose proof (gtiles_le Cl). split.
    + intros Hk. rewrite A1, B1 by lia. reflexivity.
    + intros Hk. destruct (Nat.lt_ge_cases k m) as [L|L].
      * exists [], n, n', l. rewrite <- B1 by lia. split; [reflexivity|]. split; [reflexivity|]. split; [unfold in_range; rewrite (gtree_range Cn); cbn [fst snd]; apply andb_true_intro; split; [apply Nat.leb_le|apply Nat.ltb_lt]; lia|]. apply A2. lia.
      * destruct B2 as (q1&c&c'&q2&->&->&Hr&Ht); [lia|]. exists (n :: q1), c, c', q2. rewrite <- A1 by lia. auto.
Qed.
End Edit.
Lemma row_alike l : Forall2 alike l l.
Proof. induction l; constructor; auto using alike_refl. Qed.
Lemma in_middle A (x : A) l l' : In x (l ++ x :: l').
Proof. apply in_or_app. right. now left. Qed.
Theorem parse_replaced g p row row' doc doc' : no_empty_tokens g -> all_containers g -> replaced p row row' doc doc' -> wf_row doc -> wf_row row' ->
  forall n n', parse g doc = Ok n -> parse g doc' = Ok n' -> exists a b, parse g row = Ok a /\ parse g row' = Ok b /\ tree_replaced p a b n n'.
Proof.
  intros Ht Hc R Hwf Hwr. induction R as [r r'|path r r' left v before cell cell' after w right R IH]; intros n n' En En'; [exists n, n'; repeat split; auto; constructor|].
  set (k := length left). set (doc0 := left ++ Container v (mkGrid (before ++ cell :: after) w) :: right) in *. set (doc1 := left ++ Container v (mkGrid (before ++ cell' :: after) w) :: right) in *.
  assert (Hwf1 : wf_row doc1) by (eapply replaced_wf; [econstructor; exact R|exact Hwf|exact Hwr]).
  assert (N0 : nth_error doc0 k = Some (Container v (mkGrid (before ++ cell :: after) w))) by (unfold doc0, k; rewrite nth_error_app2, Nat.sub_diag; [reflexivity|apply le_n]).
  assert (N1 : nth_error doc1 k = Some (Container v (mkGrid (before ++ cell' :: after) w))) by (unfold doc1, k; rewrite nth_error_app2, Nat.sub_diag; [reflexivity|apply le_n]).
  assert (Hcells : forall d i v cells w c, wf_row d -> nth_error d i = Some (Container v (mkGrid cells w)) -> In c cells -> wf_row c).
  { intros d i v0 cells w0 c Hd Hi Hin. pose proof (wf_row_nth Hd Hi) as Hn. apply wf_container_inv in Hn as (_&_&_&Hx). now apply Hx. }
  assert (W0 : wf_row cell) by (eapply Hcells; [exact Hwf|exact N0|apply in_middle]).
  assert (W1 : wf_row cell') by (eapply Hcells; [exact Hwf1|exact N1|apply in_middle]).
  destruct (parse_gtree Ht Hc W0) as (m&Em&_). destruct (parse_gtree Ht Hc W1) as (m'&Em'&_). destruct (IH W0 Hwr m m' Em Em') as (a&b&Ea&Eb&T).
  exists a, b. split; [exact Ea|]. split; [exact Eb|].
  destruct (parse_gtree Ht Hc Hwf) as (x&Ex&G). rewrite En in Ex. injection Ex as <-. destruct (parse_gtree Ht Hc Hwf1) as (x&Ex&G'). rewrite En' in Ex. injection Ex as <-.
  assert (L : length doc0 = length doc1) by (unfold doc0, doc1; rewrite !app_length; reflexivity). rewrite <- L in G'.
  assert (O : same_outline n n').
  { eapply parse_outline; [|exact En|exact En']. unfold doc0, doc1. apply Forall2_app; [apply row_alike|]. constructor; [|apply row_alike]. constructor. rewrite !app_length. reflexivity. }
  refine (proj2 (proj1 (@trees_differ (P g) left right v before after cell cell' w path a b _ _) doc0 0 (length doc0) n G eq_refl n' G' O) _).
  - intros y y' Hy Hy'. rewrite (P_parse Ht Hc W0 Hy) in Em. rewrite (P_parse Ht Hc W1 Hy') in Em'. now injection Em as ->; injection Em' as ->.
  - intros i v0 cells w0 c y y' Hi Hin Hy Hy'. pose proof (Hcells _ _ _ _ _ _ Hwf Hi Hin) as Wc. apply (P_parse Ht Hc Wc) in Hy. apply (P_parse Ht Hc Wc) in Hy'. rewrite Hy in Hy'. now injection Hy'.
  - apply nth_error_Some_lt in N0. fold k. lia.
Qed.
