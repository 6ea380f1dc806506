(** The elements of a selection cover it. *)
From Coq Require Import String.
From Verif Require Import Base Str Grid Node Focus Autocomplete Spec NameMap Syntax Pratt Grammar SyntaxFind Render Layout SpecSyntax SpecPratt SpecRender SpecCover BaseFacts TreeFacts ParseFacts ParseTotal GrammarFacts FindFacts ShapeFacts RenderFacts LayoutFacts SightFacts.
Open Scope list_scope.
Open Scope nat_scope.
Set Implicit Arguments.
Unset Strict Implicit.

Definition rng := element_range.
Section Cover.
Variable rs : Renderers.
Variable a b : nat.
(** The elements [ys] cover the part of the selection that is in [s, e). *)
Record covering (s e : nat) (ys : list Element) : Prop := mkCovering {
  cv_all : forall k, s <= k < e -> a <= k < b -> exists y, In y ys /\ draws y k;
  cv_in : forall y, In y ys -> s <= fst (rng y) /\ fst (rng y) <= snd (rng y) <= e /\ fst (rng y) < b /\ a < snd (rng y) /\ (a <= fst (rng y) /\ snd (rng y) <= b \/ get_children y = []);
  cv_order : ForallOrdPairs (fun y y' => snd (rng y) <= fst (rng y')) ys }.
Lemma covering_app s m e ys ys' : s <= m -> m <= e -> covering s m ys -> covering m e ys' -> covering s e (ys ++ ys').
Proof.
  intros L1 L2 [A1 I1 O1] [A2 I2 O2]. constructor.
  - intros k Hk Hab. destruct (le_lt_dec m k).
    + destruct (A2 k) as (y&Hy&Hd); [lia|exact Hab|]. exists y. split; [apply in_or_app; auto|exact Hd].
    + destruct (A1 k) as (y&Hy&Hd); [lia|exact Hab|]. exists y. split; [apply in_or_app; auto|exact Hd].
  - intros y Hy. apply in_app_or in Hy as [Hy|Hy]; [specialize (I1 _ Hy)|specialize (I2 _ Hy)]; repeat split; try lia; tauto.
  - clear A1 A2. induction O1 as [|y ys F O IH]; cbn [app]; [exact O2|]. constructor.
    + apply Forall_app. split; [exact F|]. apply Forall_forall. intros y' Hy'. specialize (I1 y (or_introl eq_refl)). specialize (I2 _ Hy'). lia.
    + apply IH. intros y' Hy'. apply I1. now right.
Qed.
Lemma covering_nil s e : s = e \/ b <= s \/ e <= a -> covering s e [].
Proof. intros H. constructor; [intros; lia|intros y []|constructor]. Qed.
Lemma covering_one x s e : rng x = (s, e) -> s <= e -> s < b -> a < e -> (a <= s /\ e <= b \/ get_children x = []) -> covering s e [x].
Proof.
  intros E L H1 H2 H3. constructor.
  - intros k Hk _. exists x. split; [now left|]. unfold draws. fold rng. fold (rng x). rewrite E. exact Hk.
  - intros y [<-|[]]. rewrite E. cbn [fst snd]. repeat split; auto; lia.
  - repeat constructor.
Qed.
Definition found (x : Element) (path : list nat) (l : list (list nat)) (ys : list Element) : Prop := Forall2 (fun p y => exists q, p = path ++ q /\ element_at x q = Some y) l ys.
Definition found_in (xs : list Element) (path : list nat) (k : nat) (l : list (list nat)) (ys : list Element) : Prop :=
  Forall2 (fun p y => exists i q x, p = path ++ (k + i) :: q /\ nth_error xs i = Some x /\ element_at x q = Some y) l ys.
Lemma selection_covers Q :
  (forall o n ri x, mirror rs o n ri x -> forall row s e, gtree Q row s e n -> forall path, exists ys, found x path (selection_elements a b x path) ys /\ covering s e ys) /\
  (forall o l xs, mirror_list rs o l xs -> forall row s e, gtiles Q row s e l -> forall path k, exists ys, found_in xs path k (go_selection a b path k xs) ys /\ covering s e ys) /\
  (forall s j l xs, mirror_rows rs s j l xs -> True).
Proof.
  assert (One : forall x path s e, rng x = (s, e) -> s <= e -> get_children x = [] \/ (s < b -> a < e -> a <= s /\ e <= b) ->
    exists ys, found x path (if (b <=? s) || (e <=? a) then [] else [path]) ys /\ covering s e ys).
  { intros x path s e E L H. destruct ((b <=? s) || (e <=? a)) eqn:C.
    - exists []. split; [constructor|]. apply covering_nil. lia.
    - exists [x]. split; [constructor; [exists []; now rewrite app_nil_r|constructor]|]. apply covering_one; auto; try lia. destruct H as [H|H]; [now right|]. left. apply H; lia. }
  apply mirror_mutind; auto.
  - intros o name ty l s0 e0 ri class Hc row s e T path. pose proof (gtree_range T) as E. pose proof (gtree_le T). cbn in E. inv E. cbn [selection_elements syn_range List.length].
    rewrite andb_false_r. apply One; auto.
  - intros o name s0 ri class Hc row s e T path. pose proof (gtree_range T) as E. pose proof (gtree_le T). cbn in E. inv E. cbn [selection_elements syn_range List.length].
    rewrite andb_false_r. apply One; auto.
  - intros o o' name l s0 e0 ri tag xs Hl Hm IH _ row s e T path. pose proof (gtree_range T) as E. pose proof (gtree_le T) as L. cbn in E. inv E. apply gtree_children_inv in T. cbn [selection_elements syn_range].
    destruct ((b <=? s) || (e <=? a)) eqn:C; [exists []; split; [constructor|apply covering_nil; lia]|].
    destruct (negb _ && _) eqn:C2.
    + destruct (IH _ _ _ T path 0) as (ys&F&Cv). exists ys. split; [|exact Cv]. unfold found. fold (go_selection a b path). eapply Forall2_imp; [|exact F]. cbn beta. intros p y (i&q&x&E1&E2&E3). exists (i :: q). split; [exact E1|]. cbn [element_at get_children]. now rewrite E2.
    + eexists [_]. split; [constructor; [exists []; rewrite app_nil_r; split; reflexivity|constructor]|]. apply covering_one; [reflexivity|lia|lia|lia|]. left. destruct xs; [inv Hm; now destruct Hl|]. cbn [List.length] in C2. lia.
  - intros o name l w s0 ri r class xs Hc Hl Hm _ _ row s e T path. pose proof (gtree_range T) as E. cbn in E. inv E. cbn [selection_elements syn_range].
    destruct ((b <=? s) || (S s <=? a)) eqn:C; [exists []; split; [constructor|apply covering_nil; lia]|].
    assert ((a <=? s) && (S s <=? b) = true) as -> by lia. cbn [negb andb]. eexists [_]. split; [constructor; [exists []; rewrite app_nil_r; split; reflexivity|constructor]|]. apply covering_one; [reflexivity|lia|lia|lia|]. left. lia.
  - intros o row s e T path k. inv T. exists []. split; [constructor|]. apply covering_nil. auto.
  - intros o n l x xs Hx IHx Hl IHl row s e T path k. apply gtiles_cons_inv in T as (m&T1&T2). cbn [go_selection]. destruct (IHx _ _ _ T1 (path ++ [k])) as (ys&F&Cv). destruct (IHl _ _ _ T2 path (S k)) as (ys'&F'&Cv').
    exists (ys ++ ys'). split; [|exact (covering_app (gtree_le T1) (gtiles_le T2) Cv Cv')]. apply Forall2_app.
    + eapply Forall2_imp; [|exact F]. cbn beta. intros p y (q&E1&E2). exists 0, q, x. rewrite E1, <- app_assoc, Nat.add_0_r. auto.
    + eapply Forall2_imp; [|exact F']. cbn beta. intros p y (i&q&z&E1&E2&E3). exists (S i), q, z. rewrite E1, <- plus_n_Sm. auto.
Qed.
End Cover.
