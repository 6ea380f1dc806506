(** Which documents can be written as MathML. *)
From Coq Require Import String.
From Verif Require Import Base Str Grid Node Spec SpecEditor SpecSafety SpecRender SpecImport SpecMathML BaseFacts TreeFacts OpFacts SafetyFacts Render FromMathML NameMapFacts ImportFacts MeansFacts RenderFacts.
Open Scope list_scope.
Open Scope nat_scope.
Set Implicit Arguments.
Unset Strict Implicit.

Section Written.
Variable normalize : str -> str.
Variable segment : str -> list str.
Notation layout := (to_math_layout normalize segment).
Notation layout_of := (layout_of normalize segment).
Notation written := (written normalize segment).
Notation texts_of := (texts_of normalize segment).
Notation sym s := (Symbol (normalize s)).
Notation means := (means normalize segment).
Notation mean_each := (mean_each normalize segment).

(** ** Writing *)
Lemma mean_each_app a rows b rows' : mean_each a rows -> mean_each b rows' -> mean_each (a ++ b) (rows ++ rows').
Proof. intros H H'. induction H; cbn [app]; [assumption|constructor; assumption|constructor; assumption]. Qed.
Lemma written_means row : written row -> wf_row row -> exists nodes rows, mean_each nodes rows /\ concat rows = row.
Proof.
  induction 1 as [|text row Ht _ IH|v cells w row Hs _ IHc _ IH]; intros Hwf.
  - exists [], []. split; [constructor|reflexivity].
  - apply wf_row_app in Hwf as [_ Hwf]. destruct (IH Hwf) as (nodes&rows&H&<-). exists (mtag "mi" [XmlText text] :: nodes), (symbols_of normalize segment text :: rows). split; [|reflexivity]. constructor; [|exact H]. now apply text_written.
  - apply wf_row_cons in Hwf as [Hn Hwf]. destruct (IH Hwf) as (nodes&rows&H&<-). apply wf_container_inv in Hn as (Hw&Hne&Hmod&Hc). cbn [gvalues gwidth] in *.
    destruct (@shape_written normalize segment v cells w) as (x&Hx); [assumption..| |].
    + intros cell Hin. destruct (IHc cell Hin) as (ns&rs&Hns&<-); [intros n Hn; exact (Hc _ Hin _ Hn)|]. exists ns. apply means_row; [exists "mtd"%string; cbn; auto|exact Hns].
    + exists (x :: nodes), ([Container v (mkGrid cells w)] :: rows). split; [constructor; assumption|reflexivity].
Qed.

(** ** Reading *)
Hypothesis quote : segment [34%N] = [[34%N]].
Hypothesis two : segment (lit "2") = [lit "2"].
Lemma written_app a b : written a -> written b -> written (a ++ b).
Proof. intros H H'. induction H; cbn [app]; [assumption|rewrite <- app_assoc; constructor; assumption|constructor; assumption]. Qed.
Lemma written_concat rows : Forall written rows -> written (concat rows).
Proof. induction 1; cbn [concat]; [constructor|now apply written_app]. Qed.
Lemma written_one v cells w : shape v (List.length cells) w -> Forall written cells -> written [Container v (mkGrid cells w)].
Proof. intros Hs H. constructor; [exact Hs|now apply Forall_forall|constructor]. Qed.
Lemma written_tight text : tight_text text -> written (symbols_of normalize segment text).
Proof. intros H. rewrite <- (app_nil_r (symbols_of _ _ _)). constructor; [exact H|constructor]. Qed.
Lemma trim_start_head s c l : trim_start s = c :: l -> is_white c = false.
Proof. induction s as [|d s IH]; cbn [trim_start]; [discriminate|]. destruct (js_space d) eqn:E; [exact IH|]. intros H. inv H. now rewrite <- js_space_white. Qed.
Lemma trim_start_suffix s : exists b, s = b ++ trim_start s.
Proof. induction s as [|d s [b IH]]; [exists []; reflexivity|]. cbn [trim_start]. destruct (js_space d); [exists (d :: b); cbn; now rewrite <- IH|exists []; reflexivity]. Qed.
Lemma trim_tight s : tight_text (trim s).
Proof.
  unfold trim. split; intros c l E.
  - destruct (trim_start_suffix (rev (trim_start s))) as [b Hb]. apply (f_equal (@rev N)) in Hb. rewrite rev_involutive, rev_app_distr, E in Hb. cbn [app] in Hb. exact (trim_start_head Hb).
  - apply (f_equal (@rev N)) in E. rewrite rev_involutive, rev_app_distr in E. cbn [rev app] in E. exact (trim_start_head E).
Qed.
Lemma written_texts x : written (texts_of x).
Proof. apply (@written_tight (trim (text_content x))). apply trim_tight. Qed.
Lemma tight_char c : is_white c = false -> tight_text [c].
Proof. intros H. split; intros d l E; [now inv E|]. destruct l as [|? [|]]; inv E. exact H. Qed.
Lemma written_char c : segment [c] = [[c]] -> is_white c = false -> written [sym [c]].
Proof. intros E H. replace [sym [c]] with (symbols_of normalize segment [c]) by (unfold symbols_of; now rewrite E). apply written_tight. now apply tight_char. Qed.
Lemma written_quote : written [sym [34%N]].
Proof. now apply written_char. Qed.
Lemma written_two : written [sym (lit "2")].
Proof. now apply written_char. Qed.
Lemma written_layouts e cs rows : (forall c, In c cs -> forall row, layout_of e c row -> written row) -> Forall2 (layout_of e) cs rows -> Forall written rows.
Proof.
  intros IH HF. induction HF as [|c row cs rows Hc HF IHF]; [constructor|]. constructor; [eapply IH; eauto; now left|apply IHF]. intros c' Hin. apply IH. now right.
Qed.
Lemma layout_written x : forall row, layout_of [] x row -> written row.
Proof.
  induction x as [x IH] using kept_induct. intros row (l&e'&E&->&He). rewrite (He eq_refl) in E. clear He e'. apply layout_view in E. inv E.
  - apply written_texts.
  - apply (@written_app [sym [34%N]]); [exact written_quote|]. apply written_app; [apply written_texts|exact written_quote].
  - apply written_concat. eapply written_layouts; [|eassumption]. intros c Hc row Hr. refine (IH c _ _ Hr). apply kept_row; [|exact Hc]. match goal with H : tag_in _ _ |- _ => destruct H as (n&H&->); exists n; split; [cbn in *; tauto|reflexivity] end.
  - apply written_one; [cbn; auto|]. constructor; [exact written_two|]. constructor; [|constructor]. apply written_concat. eapply written_layouts; [|eassumption]. intros c Hc row Hr. refine (IH c _ _ Hr). apply kept_row; [|exact Hc]. eexists. split; [|reflexivity]. cbn. tauto.
  - match goal with H : layout_of _ _ _ |- _ => refine (IH c _ _ H) end. eapply kept_semantics; eauto.
  - match goal with H : elements _ = _ |- _ => rename H into El end. apply written_one; [cbn; auto|]. constructor; [|constructor; [|constructor]]; [match goal with H : layout_of _ a _ |- _ => refine (IH a _ _ H) end|match goal with H : layout_of _ b _ |- _ => refine (IH b _ _ H) end]; (eapply kept_part; [apply parts_two; cbn; tauto|rewrite El; reflexivity|rewrite El; cbn; tauto]).
  - match goal with H : elements _ = _ |- _ => rename H into El end. apply written_one; [cbn; auto|]. constructor; [|constructor; [|constructor]]; [match goal with H : layout_of _ b _ |- _ => refine (IH b _ _ H) end|match goal with H : layout_of _ a _ |- _ => refine (IH a _ _ H) end]; (eapply kept_part; [apply parts_two; cbn; tauto|rewrite El; reflexivity|rewrite El; cbn; tauto]).
  - match goal with H : elements _ = _ |- _ => rename H into El end. assert (Hp : parts tag 2) by (match goal with H : tag_in _ _ |- _ => destruct H as (n&H&->); apply parts_two; cbn in *; tauto end).
    assert (Hv : v = Sub \/ v = Sup). { match goal with H : scripts_of tag = _ |- _ => revert H end. unfold scripts_of. destruct (tag_is _ _); [intros E; inv E; auto|]. destruct (tag_is _ _); intros E; inv E; auto. }
    apply written_app; [|apply written_one; [destruct Hv; subst v; cbn; auto|constructor; [|constructor]]]; [match goal with H : layout_of _ a _ |- _ => refine (IH a _ _ H) end|match goal with H : layout_of _ b _ |- _ => refine (IH b _ _ H) end];
      (eapply kept_part; [exact Hp|rewrite El; reflexivity|rewrite El; cbn; tauto]).
  - match goal with H : elements _ = _ |- _ => rename H into El end. assert (Hp : parts tag 3) by (match goal with H : tag_in _ _ |- _ => destruct H as (n&H&->); apply parts_three; cbn in *; tauto end).
    change [script_node Sub rb; script_node Sup rc] with ([script_node Sub rb] ++ [script_node Sup rc]).
    apply written_app; [|apply written_app; (apply written_one; [cbn; auto|constructor; [|constructor]])]; [match goal with H : layout_of _ a _ |- _ => refine (IH a _ _ H) end|match goal with H : layout_of _ b _ |- _ => refine (IH b _ _ H) end|match goal with H : layout_of _ c _ |- _ => refine (IH c _ _ H) end];
      (eapply kept_part; [exact Hp|rewrite El; reflexivity|rewrite El; cbn; tauto]).
  - apply written_one; [exact I|]. match goal with H : table_shape _ |- _ => rename H into Hs end. match goal with H : Forall2 _ _ _ |- _ => rename H into HF end.
    assert (IH' : forall t cells, In (XmlElement t cells) (elements nodes) -> forall c, In c (elements cells) -> forall row, layout_of [] c row -> written row) by (intros t cells H1 c H2 row Hr; refine (IH c _ _ Hr); eapply kept_cell; eauto).
    clear - HF IH'. induction HF as [|line rows nodes' lines (Hl&t&cells&->&Hle&HF1&HF2) HF IH]; [constructor|]. cbn [concat]. apply Forall_app. split; [|apply IH; eauto using in_cons].
    rewrite <- (firstn_skipn (List.length (elements cells)) rows). apply Forall_app. split; [eapply written_layouts; [|exact HF1]; eapply IH'; now left|]. eapply Forall_impl; [|exact HF2]. intros r ->. constructor.
  - constructor.
  - congruence.
Qed.
Theorem readable doc : wf_row doc -> ((exists nodes, from_element normalize segment (XmlElement (lit "math") nodes) = Ok (doc, [])) <-> written doc).
Proof.
  intros Hwf. split.
  - intros (nodes&E). apply from_element_layout in E. exact (layout_written E).
  - intros H. destruct (written_means H Hwf) as (nodes&rows&Hn&<-). exists nodes. apply means_read. apply means_row; [exists "math"%string; cbn; auto|exact Hn].
Qed.
Theorem meant doc : wf_row doc -> ((exists nodes, means (XmlElement (lit "math") nodes) doc) <-> written doc).
Proof.
  intros Hwf. split.
  - intros (nodes&H). apply readable; [exact Hwf|]. exists nodes. now apply means_read.
  - intros H. destruct (written_means H Hwf) as (nodes&rows&Hn&<-). exists nodes. apply means_row; [exists "math"%string; cbn; auto|exact Hn].
Qed.
End Written.

(** ** Characters *)
Notation chars := (map (fun c => Symbol [c])).
Section Plain.
Definition plainly : str -> list str := map (fun c => [c]).
Definition same (s : str) : str := s.
Notation written := (written same plainly).
Lemma symbols_chars text : symbols_of same plainly text = chars text.
Proof. unfold symbols_of, plainly, same. rewrite map_map. reflexivity. Qed.
Lemma last_dark t : (forall d l, t = d :: l -> is_white d = false) -> t <> [] ->
  exists a d m, t = a ++ d :: m /\ is_white d = false /\ forall x, In x m -> is_white x = true.
Proof.
  intros H Hne. induction t as [|x t IH] using rev_ind; [congruence|]. destruct (is_white x) eqn:E; [|exists t, x, []; split; [reflexivity|]; split; [exact E|easy]].
  destruct t as [|y t]; [rewrite (H x [] eq_refl) in E; discriminate|]. destruct IH as (a&d&m&Ht&Hd&Hm); [intros d l El; inv El; now apply (H d (l ++ [x]))|discriminate|].
  exists a, d, (m ++ [x]). split; [rewrite Ht, <- app_assoc; reflexivity|]. split; [exact Hd|]. intros z Hz. apply in_app_or in Hz as [Hz|[<-|[]]]; auto.
Qed.
Lemma first_dark t : (forall d l, t = l ++ [d] -> is_white d = false) -> t <> [] -> exists m d a, t = m ++ d :: a /\ is_white d = false /\ forall x, In x m -> is_white x = true.
Proof.
  intros H Hne. destruct (@last_dark (rev t)) as (a&d&m&Ht&Hd&Hm); [intros d l E; apply (H d (rev l)); now rewrite <- (rev_involutive t), E|intros E; apply Hne; now rewrite <- (rev_involutive t), E|].
  exists (rev m), d, (rev a). split; [rewrite <- (rev_involutive t), Ht, rev_app_distr; cbn; now rewrite <- app_assoc|]. split; [exact Hd|]. intros x Hx. apply Hm. now apply in_rev.
Qed.
Lemma white_chars m : (forall x, In x m -> is_white x = true) -> all_white (chars m).
Proof. intros H n Hn. apply in_map_iff in Hn as (c&<-&Hc). exists c. auto. Qed.
Lemma chars_split text a c b row : chars text ++ row = a ++ Symbol [c] :: b ->
  (exists t t', text = t ++ c :: t' /\ a = chars t /\ b = chars t' ++ row) \/ (exists a', a = chars text ++ a' /\ row = a' ++ Symbol [c] :: b).
Proof.
  revert a. induction text as [|x text IH]; intros a E; [right; exists a; auto|]. destruct a as [|n a]; cbn [map app] in E; inv E.
  - left. exists [], text. auto.
  - destruct (IH _ H1) as [(t&t'&->&->&->)|(a'&->&->)]; [left; exists (x :: t), t'; auto|right; exists a'; auto].
Qed.
Lemma white_text text row : tight_text text -> white_inside row -> white_inside (chars text ++ row).
Proof.
  intros [H1 H2] Hr a c b E Hc. apply chars_split in E as [(t&t'&->&->&->)|(a'&->&->)].
  - split.
    + destruct t as [|d t]; [rewrite (H1 c t' eq_refl) in Hc; discriminate|].
      destruct (@last_dark (d :: t)) as (a&x&m&->&Hx&Hm); [intros e l El; inv El; now apply (H1 e (l ++ c :: t'))|discriminate|].
      exists (chars a), x, (chars m). split; [now rewrite map_app|]. split; [exact Hx|now apply white_chars].
    + destruct (list_eq_dec N.eq_dec t' []) as [->|Hne]; [rewrite (H2 c t eq_refl) in Hc; discriminate|].
      destruct (@first_dark t') as (m&x&a&->&Hx&Hm); [intros e l ->; apply (H2 e (t ++ c :: l)); now rewrite <- app_assoc|exact Hne|].
      exists (chars m), x, (chars a ++ row). split; [rewrite map_app, <- app_assoc; reflexivity|]. split; [exact Hx|now apply white_chars].
  - destruct (Hr a' c b eq_refl Hc) as [(a&d&m&->&Hd&Hm) Hb]. split; [|exact Hb]. exists (chars text ++ a), d, m. split; [now rewrite <- app_assoc|auto].
Qed.
Lemma white_container n row : (forall s, n <> Symbol s) -> white_inside row -> white_inside (n :: row).
Proof.
  intros Hn Hr a c b E Hc. destruct a as [|n' a]; cbn [app] in E; inv E; [now elim (Hn [c])|]. destruct (Hr a c b eq_refl Hc) as [(a'&d&m&->&Hd&Hm) Hb]. split; [|exact Hb]. exists (n' :: a'), d, m. auto.
Qed.
Lemma white_nil : white_inside [].
Proof. intros a c b E. destruct a; discriminate. Qed.
Definition plain_row (row : InputRow) : Prop := (forall n, In n row -> plain_node n) /\ white_inside row.
Lemma written_plain row : written row -> everywhere plain_row row.
Proof.
  intros H. enough (D : plain_row row /\ forall v cells w, In (Container v (mkGrid cells w)) row -> forall cell, In cell cells -> everywhere plain_row cell).
  { destruct D as [D1 D2]. apply everywhere_intro; [exact D1|]. intros k v cells w cell E. apply nth_error_In in E. eauto. }
  induction H as [|text row Ht _ [[IH1 IH2] IH3]|v cells w row Hs _ IHc _ [[IH1 IH2] IH3]].
  - split; [split; [easy|exact white_nil]|easy].
  - rewrite symbols_chars. split; [split; [|now apply white_text]|].
    + intros n Hn. apply in_app_or in Hn as [Hn|Hn]; [apply in_map_iff in Hn as (c&<-&_); exists c; reflexivity|auto].
    + intros v cells w Hin. apply in_app_or in Hin as [Hin|Hin]; [apply in_map_iff in Hin as (c&E&_); discriminate|eauto].
  - split; [split|].
    + intros n [<-|Hn]; [exact Hs|auto].
    + apply white_container; [discriminate|exact IH2].
    + intros v' cells' w' [E|Hin] cell Hcell; [|eauto]. inv E. destruct (IHc cell Hcell) as [D1 D2]. apply everywhere_intro; [exact D1|]. intros k v cells w cell' E. apply nth_error_In in E. eauto.
Qed.
(** The text at the beginning *)
Lemma take_text row : (forall n, In n row -> plain_node n) -> exists text rest, row = chars text ++ rest /\ (rest = [] \/ exists v g rest', rest = Container v g :: rest').
Proof.
  induction row as [|[v g|s] row IH]; intros H.
  - exists [], []. auto.
  - exists [], (Container v g :: row). split; [reflexivity|]. right. eauto.
  - destruct (H _ (or_introl eq_refl)) as [c ->]. destruct IH as (text&rest&->&Hr); [intros n Hn; apply H; now right|]. exists (c :: text), rest. auto.
Qed.
Lemma after_container (p : InputRow) n a a' d m : (forall s, n <> Symbol s) -> p ++ n :: a = a' ++ Symbol [d] :: m -> all_white m -> exists a'', a = a'' ++ Symbol [d] :: m.
Proof.
  intros Hn. revert a'. induction p as [|x p IH]; intros a' E Hm; destruct a' as [|y a']; cbn [app] in E; inv E.
  - now elim (Hn [d]).
  - exists a'. reflexivity.
  - exfalso. destruct (Hm n) as (c&E&_); [apply in_or_app; right; now left|]. exact (Hn _ E).
  - exact (IH _ H1 Hm).
Qed.
Lemma plain_written_row k : forall row, List.length row <= k -> plain_row row -> (forall v cells w, In (Container v (mkGrid cells w)) row -> forall cell, In cell cells -> written cell) -> written row.
Proof.
  induction k as [|k IH]; intros row Hk [H1 H2] Hc; [destruct row; [constructor|cbn in Hk; lia]|].
  destruct (take_text H1) as (text&rest&->&Hr). rewrite <- symbols_chars. constructor.
  - split; intros c l E; subst text.
    + destruct (is_white c) eqn:Ew; [|reflexivity]. destruct (H2 [] c (chars l ++ rest) eq_refl Ew) as [(a&d&m&Ea&_) _]. destruct a; discriminate.
    + destruct (is_white c) eqn:Ew; [|reflexivity]. rewrite map_app, <- app_assoc in H2. destruct (H2 _ c rest eq_refl Ew) as [_ (m&d&b&Eb&_&Hm)].
      destruct Hr as [->|(v&g&rest'&->)]; [destruct m; discriminate|]. destruct m as [|x m]; cbn [app] in Eb; [discriminate|]. injection Eb as <- _. destruct (Hm _ (or_introl eq_refl)) as (c'&E&_). discriminate.
  - destruct Hr as [->|(v&[cells w]&rest'&->)]; [constructor|]. constructor.
    + exact (H1 (Container v (mkGrid cells w)) ltac:(apply in_or_app; right; now left)).
    + intros cell. apply (Hc v cells w). apply in_or_app. right. now left.
    + apply IH.
      * rewrite app_length in Hk. cbn [List.length] in Hk. lia.
      * split; [intros n Hn; apply H1; apply in_or_app; right; now right|]. intros a c b -> Hw.
        destruct (H2 (chars text ++ Container v (mkGrid cells w) :: a) c b) as [(a'&d&m&E&Hd&Hm) Hb]; [now rewrite <- app_assoc|exact Hw|]. split; [|exact Hb].
        apply after_container in E as (a''&->); [|discriminate|exact Hm]. exists a'', d, m. auto.
      * intros v' cells' w' Hin. apply (Hc v' cells' w'). apply in_or_app. right. now right.
Qed.
Lemma everywhere_written row : everywhere plain_row row -> written row.
Proof.
  enough (N : forall n, match n with Symbol _ => True | Container _ (mkGrid cells _) => forall cell, In cell cells -> everywhere plain_row cell -> written cell end).
  { intros H. apply (@plain_written_row (List.length row)); [lia|exact (everywhere_here H)|]. intros v cells w Hin cell Hcell. apply (N (Container v (mkGrid cells w)) cell Hcell). apply In_nth_error in Hin as (k&Hk). exact (everywhere_cell H Hk Hcell). }
  induction n as [s|v cells w IH] using node_ind'; [exact I|]. intros cell Hcell H. apply (@plain_written_row (List.length cell)); [lia|exact (everywhere_here H)|].
  intros v' cells' w' Hin cell' Hcell'. apply (IH _ Hcell _ Hin cell' Hcell'). apply In_nth_error in Hin as (k&Hk). exact (everywhere_cell H Hk Hcell').
Qed.
Theorem written_characters row : written row <-> everywhere plain_row row.
Proof. split; [apply written_plain|apply everywhere_written]. Qed.
End Plain.
