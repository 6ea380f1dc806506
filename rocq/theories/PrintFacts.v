(** Printing a document is injective. *)
From Coq Require Import String DecimalN DecimalFacts.
From Verif Require Import Base Str Grid Node Spec Print BaseFacts.
Open Scope list_scope.
Open Scope nat_scope.
Set Implicit Arguments.
Unset Strict Implicit.

(** ** Decimals *)
Definition is_digit (c : N) : bool := ((48 <=? c) && (c <=? 57))%N.
(** The rest of the text does not continue a number. *)
Definition no_digit (t : str) : Prop := match t with c :: _ => is_digit c = false | [] => True end.
Lemma digits_inj u u' t t' : no_digit t -> no_digit t' -> digits u ++ t = digits u' ++ t' -> u = u' /\ t = t'.
Proof.
  revert u'; induction u; intros u' Ht Ht'; destruct u'; cbn [digits app]; intros E.
  all: try (injection E as E; destruct (IHu _ Ht Ht' E) as [-> ->]; now split).
  all: try discriminate E.
  all: try (subst t; cbn in Ht; discriminate Ht).
  all: try (subst t'; cbn in Ht'; discriminate Ht').
  subst; auto.
Qed.
Lemma print_N_inj n n' t t' : no_digit t -> no_digit t' -> print_N n ++ t = print_N n' ++ t' -> n = n' /\ t = t'.
Proof.
  intros Ht Ht' E. apply digits_inj in E as [E ->]; auto. split; auto.
  rewrite <- (DecimalN.Unsigned.of_to n), E. apply DecimalN.Unsigned.of_to.
Qed.
Lemma print_usize_inj n n' t t' : no_digit t -> no_digit t' -> print_usize n ++ t = print_usize n' ++ t' -> n = n' /\ t = t'.
Proof. intros Ht Ht' E. apply print_N_inj in E as [E ->]; auto. split; auto. lia. Qed.

(** ** Strings *)
Lemma escape_inj s s' t t' : escape_quotes s ++ 34%N :: t = escape_quotes s' ++ 34%N :: t' -> s = s' /\ t = t'.
Proof.
  assert (Q1 : lit "\""" = [92; 34]%N) by reflexivity. assert (Q2 : lit "\\" = [92; 92]%N) by reflexivity.
  revert s'; induction s as [|c s IH]; intros [|c' s']; cbn [escape_quotes app]; rewrite ?Q1, ?Q2.
  - intros E; now inv E.
  - destruct (c' =? 34)%N eqn:E1; [discriminate|]. destruct (c' =? 92)%N eqn:E2; [discriminate|]. cbn. intros E. inv E. discriminate.
  - destruct (c =? 34)%N eqn:E1; [discriminate|]. destruct (c =? 92)%N eqn:E2; [discriminate|]. cbn. intros E. inv E. discriminate.
  - destruct (c =? 34)%N eqn:E1, (c' =? 34)%N eqn:E1'; [|destruct (c' =? 92)%N eqn:E2'|destruct (c =? 92)%N eqn:E2
      |destruct (c =? 92)%N eqn:E2, (c' =? 92)%N eqn:E2']; cbn; intros E; inv E.
    all: try discriminate; try (rewrite N.eqb_eq in *; subst; discriminate).
    all: match goal with H : escape_quotes _ ++ _ = _ |- _ => apply IH in H as [-> ->] end.
    all: rewrite ?N.eqb_eq in *; subst; auto.
Qed.

(** ** Documents *)
Definition self_delimiting A (f : A -> Res str) (x : A) : Prop :=
  forall x' s s' t t', f x = Ok s -> f x' = Ok s' -> s ++ t = s' ++ t' -> x = x' /\ t = t'.

Lemma spaced_inj A (f : A -> Res str) l : (forall x, In x l -> self_delimiting f x) ->
  forall l' s s' t t', print_spaced f l = Ok s -> print_spaced f l' = Ok s' -> s ++ 41%N :: t = s' ++ 41%N :: t' -> l = l' /\ t = t'.
Proof.
  induction l as [|x l IH]; intros Hx [|x' l'] s s' t t'; cbn [print_spaced].
  - intros H H'. inv H. inv H'. cbn. intros E. now inv E.
  - intros H H'. inv H. apply bind_ok in H' as (a&_&H'). apply bind_ok in H' as (b&_&H'). inv H'. discriminate.
  - intros H H'. inv H'. apply bind_ok in H as (a&_&H). apply bind_ok in H as (b&_&H). inv H. discriminate.
  - intros H H'. apply bind_ok in H as (a&Ha&H). apply bind_ok in H as (b&Hb&H). inv H.
    apply bind_ok in H' as (a'&Ha'&H'). apply bind_ok in H' as (b'&Hb'&H'). inv H'.
    change (lit " ") with [32%N]. cbn [app]. intros E. injection E as E. rewrite <- !app_assoc in E.
    destruct (Hx x (or_introl eq_refl) _ _ _ _ _ Ha Ha' E) as [<- E']. apply (IH (fun y Hy => Hx y (or_intror Hy)) l' b b' t t') in E' as [<- <-]; auto.
Qed.
Lemma row_inj r : (forall n, In n r -> self_delimiting print_node n) -> self_delimiting print_row r.
Proof.
  intros Hn r' s s' t t' H H'. unfold print_row, print_row_with in *. apply bind_ok in H as (a&Ha&H). apply bind_ok in H' as (a'&Ha'&H').
  inv H. inv H'. intros E. cbn [app] in E. injection E as E. rewrite <- !app_assoc in E. exact (spaced_inj Hn Ha Ha' E).
Qed.
Lemma spaced_no_digit A (f : A -> Res str) l s t : print_spaced f l = Ok s -> no_digit t -> no_digit (s ++ t).
Proof.
  destruct l as [|x l]; cbn [print_spaced]; intros H Ht; [inv H; exact Ht|]. apply bind_ok in H as (a&_&H). apply bind_ok in H as (b&_&H). inv H. reflexivity.
Qed.
Lemma print_size g w h : gwidth_of g = Ok w -> gheight_of (T := InputRow) g = Ok h -> w = gwidth g.
Proof.
  unfold gwidth_of, gheight_of. intros H _. apply bind_ok in H as (x&Hx&H). inv H. unfold gsize in Hx. apply bind_ok in Hx as (y&_&Hx). now inv Hx.
Qed.
Lemma variant_inj v v' t t' : print_variant v ++ 32%N :: t = print_variant v' ++ 32%N :: t' -> v = v' /\ t = t'.
Proof. destruct v, v'; cbn; intros E; inv E; auto. Qed.
Lemma node_inj n : self_delimiting print_node n.
Proof.
  induction n as [x|v cells w IH] using node_ind'; intros [v' g'|x'] s s' t t' H H' E; cbn [print_node] in H, H'.
  - apply bind_ok in H' as (a&_&H'). inv H. inv H'. discriminate.
  - injection H as <-. injection H' as <-. change (lit """") with [34%N] in E. cbn [app] in E. injection E as E. rewrite <- !app_assoc in E. apply escape_inj in E as [-> ->]. auto.
  - apply bind_ok in H as (a&Ha&H). apply bind_ok in H' as (a'&Ha'&H'). injection H as <-. injection H' as <-. change (lit "(") with [40%N] in E. change (lit " ") with [32%N] in E.
    change (lit ")") with [41%N] in E. cbn [app] in E. injection E as E. rewrite <- !app_assoc in E. cbn [app] in E. apply variant_inj in E as [<- E]. unfold print_grid_with in *.
    apply bind_ok in Ha as (w1&Hw&Ha). apply bind_ok in Ha as (h1&Hh&Ha). apply bind_ok in Ha as (b&Hb&Ha). injection Ha as <-.
    apply bind_ok in Ha' as (w2&Hw'&Ha'). apply bind_ok in Ha' as (h2&Hh'&Ha'). apply bind_ok in Ha' as (b'&Hb'&Ha'). injection Ha' as <-.
    pose proof (print_size Hw Hh) as ->. pose proof (print_size Hw' Hh') as ->. rewrite <- !app_assoc in E.
    apply print_usize_inj in E as [E1 E]; [|reflexivity..]. cbn [app] in E. injection E as E. rewrite <- !app_assoc in E. cbn [app] in E.
    apply print_usize_inj in E as [_ E]; [|eapply spaced_no_digit; eauto; reflexivity..].
    destruct (spaced_inj (f := print_row_with print_node) (l := cells)) with (2 := Hb) (3 := Hb') (t := t) (t' := t') as [E2 E3]; auto.
    + intros r Hr. apply row_inj. intros n Hn. exact (IH r Hr n Hn).
    + destruct g' as [c' w']. cbn in E1, E2. subst. auto.
  - injection H' as <-. apply bind_ok in H as (a&_&H). injection H as <-. discriminate E.
Qed.

Lemma print_injective a b s : print_row a = Ok s -> print_row b = Ok s -> a = b.
Proof. intros Ha Hb. apply (@row_inj a (fun n _ => @node_inj n) b s s [] [] Ha Hb eq_refl). Qed.

Lemma spaced_total A (f : A -> Res str) l : (forall x, In x l -> exists s, f x = Ok s) -> exists s, print_spaced f l = Ok s.
Proof.
  induction l as [|x l IH]; intros H; cbn [print_spaced]; [eauto|].
  destruct (H x (or_introl eq_refl)) as [s ->]. destruct IH as [r ->]; [intros y Hy; apply H; now right|]. cbn. eauto.
Qed.
Lemma print_row_with_total f r : (forall n, In n r -> exists s, f n = Ok s) -> exists s, print_row_with f r = Ok s.
Proof. intros H. unfold print_row_with. destruct (spaced_total H) as [s ->]. cbn. eauto. Qed.
Lemma print_node_total n : wf_node n -> exists s, print_node n = Ok s.
Proof.
  induction n as [x|v cells w IH] using node_ind'; intros Hwf; cbn [print_node]; [eauto|].
  inversion Hwf as [|v' cells' w' H1 H2 H3 H4]; subst. unfold print_grid_with, gwidth_of, gheight_of, gsize, udiv. cbn [gwidth gvalues].
  destruct (w =? 0) eqn:Ew; [lia|]. cbn [bind].
  destruct (@spaced_total _ (print_row_with print_node) cells) as [s Hs].
  - intros r Hr. apply print_row_with_total. intros n Hn. apply (IH r Hr n Hn). eapply H4; eauto.
  - rewrite Hs. cbn. eauto.
Qed.
Lemma print_total r : wf_row r -> exists s, print_row r = Ok s.
Proof. intros H. apply print_row_with_total. intros n Hn. apply print_node_total, H, Hn. Qed.
