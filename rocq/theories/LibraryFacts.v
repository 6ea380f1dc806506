(** Proofs about making parsers of modules. *)
From Coq Require Import String.
From Verif Require Import Base Str Grid Node Focus Edit Caret Autocomplete Rules Spec NameMap Syntax Pratt Grammar SyntaxFind Modules Render SpecSyntax SpecRender SpecDom SpecModules
  BaseFacts ParseFacts ParseTotal GrammarFacts NameMapFacts ShapeFacts RenderFacts DomFacts ModulesFacts.
Open Scope list_scope.
Open Scope nat_scope.
Set Implicit Arguments.
Unset Strict Implicit.

(** * Objects *)
Lemma nth_taken A (l : list (option A)) k x : nth_error l k = Some x -> forall j, nth_error (firstn k l ++ None :: skipn (S k) l) j = if j =? k then Some None else nth_error l j.
Proof.
  revert k. induction l as [|a l IH]; intros [|k] H [|j]; cbn in *; try discriminate; try reflexivity. exact (IH k H j).
Qed.
Lemma take_live l k m : nth_error l k = Some (Some m) -> exists l', take_object l k = (l', Ok m) /\ forall j, nth_error l' j = if j =? k then Some None else nth_error l j.
Proof. intros H. unfold take_object. rewrite H. eexists. split; [reflexivity|]. exact (nth_taken H). Qed.
Lemma take_dead l k : (forall m, nth_error l k <> Some (Some m)) -> exists p, take_object l k = (l, Panic p).
Proof. intros H. unfold take_object. destruct (nth_error l k) as [[m|]|] eqn:E; [now destruct (H m)|eexists; reflexivity|eexists; reflexivity]. Qed.
Lemma live_dec (l : list (option Module)) k : (exists m, nth_error l k = Some (Some m)) \/ (forall m, nth_error l k <> Some (Some m)).
Proof. destruct (nth_error l k) as [[m|]|]; [left; eauto|right; congruence|right; congruence]. Qed.

Lemma add_modules_iff ks : forall l ms r, snd (add_modules l ms ks) = Ok r <->
  NoDup ks /\ exists new, r = ms ++ new /\ Forall2 (fun k m => nth_error l k = Some (Some m)) ks new.
Proof.
  induction ks as [|k ks IH]; intros l ms r; cbn [add_modules].
  - cbn. split.
    + intros E. injection E as <-. split; [constructor|]. exists []. rewrite app_nil_r. split; [reflexivity|constructor].
    + intros (_&new&->&F). inversion F. now rewrite app_nil_r.
  - destruct (live_dec l k) as [(m&Hm)|Hn].
    + destruct (take_live Hm) as (l'&->&Hl'). rewrite IH. split.
      * intros (Nd&new&->&F). assert (Nk : ~ In k ks).
        { clear IH Nd. induction F as [|j x ks new Hj F IHF]; [intros []|]. intros [->|Hi]; [|exact (IHF Hi)]. rewrite Hl', Nat.eqb_refl in Hj. discriminate. }
        split; [now constructor|]. exists (m :: new). rewrite <- app_assoc. split; [reflexivity|]. constructor; [exact Hm|].
        clear IH Nd. induction F as [|j x ks new Hj F IHF]; [constructor|]. cbn in Nk. constructor; [|apply IHF; tauto].
        rewrite Hl' in Hj. destruct (j =? k) eqn:Ej; [discriminate|exact Hj].
      * intros (Nd&new&->&F). inversion_clear Nd as [|? ? Nk Nd']. inversion F as [|? m' ? new' Hm' F']; subst. rewrite Hm in Hm'. injection Hm' as <-.
        split; [exact Nd'|]. exists new'. rewrite <- app_assoc. split; [reflexivity|]. clear IH Nd' F. induction F' as [|j x ks new Hj F IHF]; [constructor|]. cbn in Nk.
        constructor; [|apply IHF; tauto]. rewrite Hl'. destruct (j =? k) eqn:Ej; [apply Nat.eqb_eq in Ej; subst; tauto|exact Hj].
    + destruct (take_dead Hn) as (p&->). cbn. split; [discriminate|]. intros (_&new&_&F). inversion F as [|? m' ? new' Hm' F']; subst. now destruct (Hn m').
Qed.
(** Objects only lose their pointers. *)
Lemma add_modules_objects ks : forall l ms j, nth_error (fst (add_modules l ms ks)) j = nth_error l j \/ (nth_error (fst (add_modules l ms ks)) j = Some None /\ In j ks).
Proof.
  induction ks as [|k ks IH]; intros l ms j; cbn [add_modules]; [now left|]. destruct (live_dec l k) as [(m&Hm)|Hn].
  - destruct (take_live Hm) as (l'&->&Hl'). destruct (IH l' (ms ++ [m]) j) as [E|(E&I)]; [|right; split; [exact E|now right]]. rewrite E, Hl'. destruct (j =? k) eqn:Ej; [|now left].
    apply Nat.eqb_eq in Ej. right. split; [reflexivity|now left].
  - destruct (take_dead Hn) as (p&->). now left.
Qed.
Lemma add_modules_used ks : forall l ms r, snd (add_modules l ms ks) = Ok r -> forall k, In k ks -> nth_error (fst (add_modules l ms ks)) k = Some None.
Proof.
  induction ks as [|k ks IH]; intros l ms r E j Hj; [destruct Hj|]. cbn [add_modules] in *. destruct (live_dec l k) as [(m&Hm)|Hn].
  - destruct (take_live Hm) as (l'&T&Hl'). rewrite T in *. destruct Hj as [<-|Hj]; [|exact (IH _ _ _ E j Hj)].
    destruct (add_modules_objects ks l' (ms ++ [m]) k) as [X|(X&_)]; [|exact X]. rewrite X, Hl', Nat.eqb_refl. reflexivity.
  - destruct (take_dead Hn) as (p&T). rewrite T in E. discriminate.
Qed.
Theorem made_iff lib ks r : snd (make_math_parser_with lib ks) = Ok r <->
  NoDup ks /\ exists new, r = BuiltIn :: new /\ Forall2 (fun k m => nth_error (lib_objects lib) k = Some (Some m)) ks new.
Proof.
  unfold make_math_parser_with. destruct (add_modules (lib_objects lib) [BuiltIn] ks) as [l q] eqn:E. cbn [snd].
  pose proof (add_modules_iff ks (lib_objects lib) [BuiltIn] r) as H. rewrite E in H. exact H.
Qed.
Theorem made_used lib ks r : snd (make_math_parser_with lib ks) = Ok r -> forall k, In k ks -> nth_error (lib_objects (fst (make_math_parser_with lib ks))) k = Some None.
Proof.
  unfold make_math_parser_with. pose proof (@add_modules_used ks (lib_objects lib) [BuiltIn] r) as H. destruct (add_modules (lib_objects lib) [BuiltIn] ks) as [l q]. exact H.
Qed.
Lemma dead_stays lib op k : nth_error (lib_objects lib) k = Some None -> nth_error (lib_objects (lib_step lib op)) k = Some None.
Proof.
  intros H. destruct op as [m|ks]; cbn [lib_step].
  - cbn. rewrite nth_error_app1; [exact H|]. apply nth_error_Some. congruence.
  - unfold make_math_parser_with. pose proof (add_modules_objects ks (lib_objects lib) [BuiltIn] k) as D. destruct (add_modules (lib_objects lib) [BuiltIn] ks) as [l q]. cbn in *.
    destruct D as [->|(->&_)]; auto.
Qed.
Lemma loaded_dead ops k : 1 <= k <= 8 -> nth_error (lib_objects (lib_after ops)) k = Some None.
Proof.
  intros H. unfold lib_after. assert (E : nth_error (lib_objects (fst library_loaded)) k = Some None) by (destruct k as [|[|[|[|[|[|[|[|[|k]]]]]]]]]; try lia; vm_compute; reflexivity).
  clear H. revert E. generalize (fst library_loaded) as lib. induction ops as [|op ops IH]; intros lib E; [exact E|]. cbn [fold_left]. apply IH, dead_stays, E.
Qed.

(** * Names *)
Lemma all_modules m : In m math_modules.
Proof. destruct m; vm_compute; tauto. Qed.
Lemma loaded_names : counted (lib_known (fst library_loaded)) (lib_names (fst library_loaded)).
Proof.
  assert (E : lib_names (fst library_loaded) = add_all name_map_new (flat_map module_names math_modules)) by (vm_compute; reflexivity).
  destruct (counted_add_all (flat_map module_names math_modules) counted_new) as (l&C&_). rewrite app_nil_l in C. unfold lib_known. rewrite E, (counted_names C). exact C.
Qed.
Lemma add_all_known l m names : counted l m -> incl names l -> add_all m names = m.
Proof.
  intros C. induction names as [|x names IH]; intros H; [reflexivity|]. cbn [add_all]. destruct (counted_add x C) as [E _]. rewrite E by (apply H; now left). apply IH. intros y Hy. apply H. now right.
Qed.
Lemma loaded_incl m : incl (module_names m) (lib_known (fst library_loaded)).
Proof.
  assert (F : forallb (fun name => existsb (path_eqb name) (lib_known (fst library_loaded))) (module_names m) = true) by (destruct m; vm_compute; reflexivity).
  rewrite forallb_forall in F. intros x Hx. apply F in Hx. apply existsb_exists in Hx as (y&Hy&E). apply path_eqb_eq in E. rewrite E. exact Hy.
Qed.
Lemma names_after ops : lib_names (lib_after ops) = lib_names (fst library_loaded).
Proof.
  unfold lib_after. enough (H : forall lib, lib_names lib = lib_names (fst library_loaded) -> lib_names (fold_left lib_step ops lib) = lib_names (fst library_loaded)) by (apply H; reflexivity).
  induction ops as [|op ops IH]; intros lib E; [exact E|]. cbn [fold_left]. apply IH. destruct op as [m|ks]; cbn [lib_step].
  - assert (X : add_all (lib_names lib) (module_names m) = lib_names (fst library_loaded)) by (rewrite E; exact (add_all_known loaded_names (@loaded_incl m))).
    destruct m; cbn [make_module lib_names]; auto.
  - unfold make_math_parser_with. destruct (add_modules (lib_objects lib) [BuiltIn] ks). exact E.
Qed.
Lemma loaded_renderers : make_renderers (lib_known (fst library_loaded)) = Ok default_renderers.
Proof. vm_compute. reflexivity. Qed.

Lemma known_after ops : lib_known (lib_after ops) = lib_known (fst library_loaded).
Proof. exact (f_equal (fun m => map fst (nm_values m)) (names_after ops)). Qed.

(** * Parsers of any modules *)
Section Any.
Variables xs xc : N -> bool.
Variable ms : list Module.
Notation g := (collection_grammar xs xc ms).
Lemma any_no_empty : no_empty_tokens g.
Proof.
  intros r t Hr Ht ty ->. cbn in Hr. apply in_flat_map in Hr as (m&_&Hr).
  assert (F : forallb (fun r => match rule_token r with Some (TSymbols [] _) => false | _ => true end) (module_rules m) = true) by (destruct m; reflexivity).
  rewrite forallb_forall in F. apply F in Hr. now rewrite Ht in Hr.
Qed.
Lemma any_rule_names m r : In r (module_rules m) -> In (rule_name r) (module_names m).
Proof.
  intros H. destruct m; try (cbn [module_names]; apply in_map; exact H). cbn [module_rules] in H.
  assert (F : forallb (fun r => existsb (path_eqb (rule_name r)) (module_names BuiltIn)) built_in_rules = true) by (vm_compute; reflexivity).
  rewrite forallb_forall in F. apply F in H. apply existsb_exists in H as (y&Hy&E). apply path_eqb_eq in E. rewrite E. exact Hy.
Qed.
Hypothesis built_in : In BuiltIn ms.
Lemma any_containers : all_containers g.
Proof.
  intros v. destruct (default_all_containers xs xc v) as (r&Hr&Ht). assert (X : exists r, In r built_in_rules /\ rule_token r = Some (TContainer v)).
  { destruct v; [exists (RAtom (built_in_name "Fraction") (TContainer Fraction))|exists (RAtom (built_in_name "Root") (TContainer RootV))|exists (RPostfix sup_rule_name 1000 (TContainer Sup))|
      exists (RPostfix sub_rule_name 1000 (TContainer Sub))|exists (RAtom (built_in_name "Table") (TContainer Table))]; (split; [vm_compute; tauto|reflexivity]). }
  destruct X as (r'&Hr'&Ht'). exists r'. split; [|exact Ht']. cbn. apply in_flat_map. exists BuiltIn. split; [exact built_in|exact Hr'].
Qed.
Lemma any_fits : fits default_renderers g.
Proof.
  apply all_fit_ok. unfold all_fit. cbn [g_rules collection_grammar]. apply andb_true_intro. split; [apply andb_true_intro; split; [vm_compute; reflexivity|]|].
  { rewrite forallb_forall. intros r Hr. apply in_flat_map in Hr as (m&_&Hr).
    assert (F : forallb (fun r => match rule_token r with Some (TBrackets x _) => negb (str_eqb x SpecPratt.space) | _ => true end) (module_rules m) = true) by (destruct m; vm_compute; reflexivity).
    rewrite forallb_forall in F. exact (F r Hr). }
  rewrite forallb_forall. intros r Hr. apply in_flat_map in Hr as (m&_&Hr). assert (F : forallb (rule_fits default_renderers) (module_rules m) = true) by (destruct m; vm_compute; reflexivity).
  rewrite forallb_forall in F. exact (F r Hr).
Qed.
Theorem any_rendered doc n : wf_row doc -> parse g doc = Ok n ->
  everywhere two_cells doc -> everywhere no_space_after_scripts doc -> everywhere no_space_before_scripts doc -> exists x, render_all default_renderers n = Ok x.
Proof.
  intros Hwf En H2 Ha Hb. apply parse_shape in En; [|apply any_no_empty].
  destruct (@tree_renders _ _ any_fits (fun _ => False) ltac:(intros x []) ltac:(intros x [])) as (T&_). apply T in En; [apply En| |apply settled_start]. intros p row E. split; [eapply wf_nonempty; eauto|]. split; [eauto|]. split; [eauto|apply no_spaces_follow; eauto].
Qed.
Theorem any_named doc n : parse g doc = Ok n -> forall m, node_of m n -> exists r, get_renderer default_renderers (syn_name m) = Some r.
Proof.
  intros En m Hm. apply parse_shape in En; [|apply any_no_empty]. destruct (tree_named g) as (T&_). specialize (T _ _ _ _ En m Hm).
  assert (I : In (syn_name m) (lib_known (fst library_loaded))).
  { destruct T as [T|T].
    - assert (F : forallb (fun name => existsb (path_eqb name) (lib_known (fst library_loaded))) built_in_names = true) by (vm_compute; reflexivity).
      rewrite forallb_forall in F. apply F in T. apply existsb_exists in T as (y&Hy&E). apply path_eqb_eq in E. rewrite E. exact Hy.
    - unfold grammar_names in T. apply in_map_iff in T as (r&<-&Hr). cbn in Hr. apply in_flat_map in Hr as (m'&_&Hr). exact (loaded_incl (any_rule_names Hr)). }
  assert (F : forallb (fun name => match get_renderer default_renderers name with Some _ => true | None => false end) (lib_known (fst library_loaded)) = true) by (vm_compute; reflexivity).
  rewrite forallb_forall in F. specialize (F _ I). cbv beta in F. revert F. generalize (get_renderer default_renderers (syn_name m)). intros [r|] F; [exists r; reflexivity|discriminate F].
Qed.
End Any.
