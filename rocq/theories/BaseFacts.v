(** General lemmas about lists, [Res] and the induction principle for nodes. *)
From Verif Require Import Base Str Grid Node Focus Spec.
Set Implicit Arguments.
Unset Strict Implicit.

(** ** [Res] *)
Lemma bind_ok A B (r : Res A) (f : A -> Res B) b :
  bind r f = Ok b -> exists a, r = Ok a /\ f a = Ok b.
Proof. destruct r; simpl; [eauto | discriminate]. Qed.
Lemma assert_ok b u : assert_ b = Ok u -> b = true.
Proof. destruct b; [reflexivity | discriminate]. Qed.
Lemma unwrap_ok A (o : option A) a : unwrap o = Ok a -> o = Some a.
Proof. destruct o; simpl; congruence. Qed.

Ltac inv H := inversion H; subst; clear H.
Ltac bind_inv_in H :=
  let a := fresh "x" in let E := fresh "E" in
  apply bind_ok in H; destruct H as [a [E H]].
Ltac bind_inv :=
  repeat (match goal with
  | H : bind _ _ = Ok _ |- _ =>
      let a := fresh "x" in let E := fresh "E" in
      apply bind_ok in H; destruct H as [a [E H]]
  | H : assert_ _ = Ok _ |- _ => apply assert_ok in H
  | H : unwrap _ = Ok _ |- _ => apply unwrap_ok in H
  | H : Ok _ = Ok _ |- _ => injection H as H
  | H : Panic _ = Ok _ |- _ => discriminate H
  end; try subst).

(** ** Lists *)
Lemma nth_error_split_len A (l : list A) i x :
  nth_error l i = Some x -> exists l1 l2, l = l1 ++ x :: l2 /\ length l1 = i.
Proof. apply nth_error_split. Qed.

Lemma nth_error_middle A (l1 l2 : list A) x : nth_error (l1 ++ x :: l2) (length l1) = Some x.
Proof. rewrite nth_error_app2 by lia. rewrite Nat.sub_diag. reflexivity. Qed.

Lemma nth_error_Some_lt A (l : list A) i x : nth_error l i = Some x -> i < length l.
Proof. intros H. apply nth_error_Some. congruence. Qed.

Lemma nth_error_lt_Some A (l : list A) i : i < length l -> exists x, nth_error l i = Some x.
Proof. intros H. apply nth_error_Some in H. destruct (nth_error l i); [eauto | congruence]. Qed.

Lemma list_set_middle A (l1 l2 : list A) x y : list_set (l1 ++ x :: l2) (length l1) y = l1 ++ y :: l2.
Proof. induction l1; simpl; congruence. Qed.

Lemma list_set_length A (l : list A) i x : length (list_set l i x) = length l.
Proof. revert i; induction l; destruct i; simpl; auto. Qed.

Lemma nth_error_list_set A (l : list A) i j x :
  nth_error (list_set l i x) j = if (j =? i) && (i <? length l) then Some x else nth_error l j.
Proof.
  revert i j; induction l as [|a l IH]; intros [|i] [|j]; simpl; try reflexivity.
  - now rewrite andb_false_r.
  - rewrite IH. reflexivity.
Qed.

Lemma list_set_set A (l : list A) i x y : list_set (list_set l i x) i y = list_set l i y.
Proof. revert i; induction l; destruct i; simpl; congruence. Qed.

Lemma list_set_same A (l : list A) i x : nth_error l i = Some x -> list_set l i x = l.
Proof. revert i; induction l; destruct i; simpl; try congruence. intros. f_equal; auto. Qed.

Lemma slice_ok A (l : list A) a b r :
  slice l a b = Ok r -> a <= b /\ b <= length l /\ r = firstn (b - a) (skipn a l).
Proof. unfold slice. destruct (_ && _) eqn:E; [|discriminate]. intros H; injection H as <-. repeat split; lia. Qed.
Lemma slice_eq A (l : list A) a b :
  a <= b -> b <= length l -> slice l a b = Ok (firstn (b - a) (skipn a l)).
Proof. intros. unfold slice. replace (_ && _) with true by lia. reflexivity. Qed.
Lemma slice_length A (l : list A) a b r : slice l a b = Ok r -> length r = b - a.
Proof. intros H. apply slice_ok in H as (?&?&->). rewrite firstn_length, skipn_length. lia. Qed.

Lemma splice_ok A (l : list A) a b n r :
  splice l a b n = Ok r -> a <= b /\ b <= length l /\ r = firstn a l ++ n ++ skipn b l.
Proof. unfold splice. destruct (_ && _) eqn:E; [|discriminate]. intros H; injection H as <-. repeat split; lia. Qed.
Lemma splice_eq A (l : list A) a b n :
  a <= b -> b <= length l -> splice l a b n = Ok (firstn a l ++ n ++ skipn b l).
Proof. intros. unfold splice. replace (_ && _) with true by lia. reflexivity. Qed.

(** A list cut into three pieces. *)
Lemma cut3 A (l : list A) a b : a <= b ->
  l = firstn a l ++ firstn (b - a) (skipn a l) ++ skipn b l.
Proof.
  intros H. rewrite <- (firstn_skipn a l) at 1. f_equal.
  rewrite <- (firstn_skipn (b - a) (skipn a l)) at 1. f_equal.
  revert b l H. induction a; intros b l H; simpl.
  - now rewrite Nat.sub_0_r.
  - destruct b; [lia|]. destruct l; simpl; [now rewrite !skipn_nil|]. apply IHa. lia.
Qed.

Lemma firstn_app_exact A (l1 l2 : list A) : firstn (length l1) (l1 ++ l2) = l1.
Proof. rewrite firstn_app, firstn_all, Nat.sub_diag. simpl. apply app_nil_r. Qed.
Lemma skipn_app_exact A (l1 l2 : list A) : skipn (length l1) (l1 ++ l2) = l2.
Proof. rewrite skipn_app, skipn_all, Nat.sub_diag. reflexivity. Qed.

Lemma removelast_last A (l : list A) x : removelast (l ++ [x]) = l.
Proof. rewrite removelast_app by discriminate. simpl. apply app_nil_r. Qed.

Lemma list_snoc A (l : list A) : l = [] \/ exists l' x, l = l' ++ [x].
Proof. destruct l using rev_ind; [now left | right; eauto]. Qed.

(** ** Equality tests *)
Lemma rowindex_eqb_eq a b : rowindex_eqb a b = true <-> a = b.
Proof.
  destruct a as [a1 a2], b as [b1 b2]. unfold rowindex_eqb; simpl.
  rewrite andb_true_iff, !Nat.eqb_eq. split; [intros [-> ->]; reflexivity | intros H; inv H; auto].
Qed.
Lemma rowindices_eqb_eq a b : rowindices_eqb a b = true <-> a = b.
Proof.
  revert b; induction a as [|x a IH]; intros [|y b]; simpl; try (split; congruence).
  rewrite andb_true_iff, rowindex_eqb_eq, IH. split; [intros [-> ->]; reflexivity | intros H; inv H; auto].
Qed.
Lemma str_eqb_eq a b : str_eqb a b = true <-> a = b.
Proof.
  revert b; induction a as [|x a IH]; intros [|y b]; simpl; try (split; congruence).
  rewrite andb_true_iff, N.eqb_eq, IH. split; [intros [-> ->]; reflexivity | intros H; inv H; auto].
Qed.
Lemma rowindex_eq_dec (a b : RowIndex) : {a = b} + {a <> b}.
Proof. decide equality; apply Nat.eq_dec. Defined.

(** ** Nested induction over nodes *)
Section NodeInd.
  Variable P : InputNode -> Prop.
  Hypothesis HS : forall s, P (Symbol s).
  Hypothesis HC : forall v cells w,
    (forall cell, In cell cells -> forall n, In n cell -> P n) -> P (Container v (mkGrid cells w)).
  Fixpoint node_ind' (n : InputNode) : P n.
  Proof.
    destruct n as [v [cells w]|s]; [|apply HS].
    apply HC.
    revert cells. fix on_cells 1. intros [|cell cells] cell' H.
    - destruct H.
    - destruct H as [<-|H]; [|exact (on_cells cells cell' H)].
      revert cell. fix on_nodes 1. intros [|n cell] n' H.
      + destruct H.
      + destruct H as [<-|H]; [apply node_ind' | exact (on_nodes cell n' H)].
  Defined.
End NodeInd.

Lemma app_inj_len A (a b c d : list A) : length a = length c -> a ++ b = c ++ d -> a = c /\ b = d.
Proof.
  revert c; induction a as [|x a IH]; intros [|y c] Hl H; simpl in *; try lia; auto.
  injection H as -> H. apply IH in H as [-> ->]; auto.
Qed.

Lemma firstn_firstn_app A (l m : list A) o : o <= length l -> firstn o (firstn o l ++ m) = firstn o l.
Proof. intros H. rewrite <- (firstn_app_exact (firstn o l) m) at 2. rewrite firstn_length. f_equal. lia. Qed.
Lemma skipn_firstn_app A (l m : list A) o : o <= length l -> skipn o (firstn o l ++ m) = m.
Proof. intros H. rewrite <- (skipn_app_exact (firstn o l) m) at 2. rewrite firstn_length. f_equal. lia. Qed.
