(** Which texts can be pasted (C82, C83). *)
From Coq Require Import String.
From Verif Require Import Base Str Grid Node Focus Edit Caret Autocomplete Editor Rules Json Spec SpecAuto SpecMove SpecEditor SpecText SpecJson
  BaseFacts TextFacts AnswerFacts JsonGrammarFacts Samples PropsEditor PropsPaste.
Open Scope list_scope.
Open Scope nat_scope.

(** * C82: exactly the JSON texts of nodes can be pasted *)
(** What is read is the grammar of RFC 8259, with at most 127 arrays and objects around each other and with surrogate pairs only; serde_json does not
    require this of what it ignores. *)
Theorem C82_json : forall s j, read_json s = Some j <-> json_text s j.
Proof. exact read_json_iff. Qed.
Print Assumptions C82_json.
(** A text stands for one value. *)
Theorem C82_unique : forall s j j', json_text s j -> json_text s j' -> j = j'.
Proof. intros s j j' H H'. apply read_json_iff in H, H'. congruence. Qed.
Print Assumptions C82_unique.
Theorem C82_nodes : forall usize_max text nodes,
  deserialize_input_nodes usize_max text = Some nodes <-> exists j, json_text text j /\ nodes_json usize_max j nodes.
Proof. exact deserialize_iff. Qed.
Print Assumptions C82_nodes.
(** Pasting is answered accordingly. *)
Theorem C82_paste : forall (SyntaxNode : Type) (env : Env SyntaxNode) usize_max ed text ed' out, uses_json env usize_max ->
  step env ed (OpPaste text true) = Ok (ed', out) -> (out = OutNone _ <-> exists j nodes, json_text text j /\ nodes_json usize_max j nodes).
Proof.
  intros SyntaxNode env usize_max ed text ed' out [_ Hd] H. apply paste_answer in H. rewrite Hd in H. split.
  - intros E. destruct (deserialize_input_nodes usize_max text) as [nodes|] eqn:En; [|congruence]. apply deserialize_iff in En as (j & Hj & Hn). eauto.
  - intros (j & nodes & Hj & Hn). assert (En : deserialize_input_nodes usize_max text = Some nodes) by (apply deserialize_iff; eauto). now rewrite En in H.
Qed.
Print Assumptions C82_paste.
(** Spaces, other orders, unknown fields, arrays in place of objects and escapes are all read. *)
Definition odd_text := lit " { ""data"" : [ {""Symbol"" : ""\u0061\ud835\udc4E\/""} , {""Container"":[{""Sup"":null},[[[[{""Symbol"":""b""}]]],1]]} ], ""x"":[-0.5e+3,null,{}], ""version"":1} ".
Example C82_case : deserialize_input_nodes 4294967295 odd_text = Some [Symbol [97; 119886; 47]%N; sup [sym "b"]] /\
  (exists j, json_text odd_text j /\ nodes_json 4294967295 j [Symbol [97; 119886; 47]%N; sup [sym "b"]]) /\
  (exists ed, step (json_env release_profile) (editor_new _) (OpPaste odd_text true) = Ok (ed, OutNone _)) /\
  (forall s, In s [lit "01"; lit "+1"; lit "1."; lit ".5"; lit "1e"; lit "[1,]"; lit "{""a"":1,}"; lit "'a'"; lit "[1 2]"; lit "nul"; lit """\ud83""" ; lit """\x61"""; lit "1 1"; []] -> forall j, ~ json_text s j) /\
  deserialize_input_nodes 4294967295 (lit "{""version"":1,""data"":[],""data"":[]}") = None /\
  deserialize_input_nodes 4294967295 (lit "{""version"":4294967296,""data"":[]}") = None /\
  deserialize_input_nodes 4294967295 (lit "{""version"":1,""data"":[{""Symbol"":""\ud835""}]}") = None.
Proof.
  split; [vm_compute; reflexivity|]. split; [apply deserialize_iff; vm_compute; reflexivity|]. split; [eexists; vm_compute; reflexivity|].
  split; [|repeat split; vm_compute; reflexivity].
  intros s Hs j H. apply read_json_iff in H. match type of Hs with In s ?l => assert (K : forallb (fun s => match read_json s with None => true | _ => false end) l = true) by (vm_compute; reflexivity) end.
  rewrite forallb_forall in K. specialize (K s Hs). cbv beta in K. rewrite H in K. discriminate K.
Qed.

(** In a field that is ignored there may be halves of surrogate pairs and any number of arrays around each other. *)
Definition ignored_text (n : nat) := lit "{""x"":[{""\udc4E\ud835"":""\ud835\n""}," ++ repeat 91%N n ++ repeat 93%N n ++ lit "],""version"":1,""data"":[{""Symbol"":""a""}]}".
Example C82_ignored : deserialize_input_nodes 4294967295 (ignored_text 300) = Some [sym "a"] /\
  (exists j, json_text (ignored_text 300) j /\ nodes_json 4294967295 j [sym "a"]) /\
  deserialize_input_nodes 4294967295 (lit "{""version"":1,""\ud835"":0,""data"":[]}") = None /\
  deserialize_input_nodes 4294967295 (lit "{""version"":1,""data"":" ++ repeat 91%N 126 ++ repeat 93%N 126 ++ lit "}") = None.
Proof. split; [vm_compute; reflexivity|]. split; [apply deserialize_iff; vm_compute; reflexivity|]. split; vm_compute; reflexivity. Qed.

(** * C83: text of another version is not taken for one of this version *)
(** All versions are read alike. *)
Theorem C83_ignored : forall usize_max version version' data nodes, (version' <= 4294967295)%N ->
  nodes_json usize_max (JObj [(lit "version", JNum version); (lit "data", data)]) nodes ->
  nodes_json usize_max (JObj [(lit "version", JNum version'); (lit "data", data)]) nodes.
Proof.
  intros usize_max v v' data nodes Hv (w & values & H & _ & Hn). exists v', values. split; [|auto]. destruct H as [H|(l & E & _ & Hd)]; [discriminate H|].
  injection E as <-. right. eexists. split; [reflexivity|]. split; apply get_field_iff; [reflexivity|]. apply get_field_iff in Hd. exact Hd.
Qed.
Print Assumptions C83_ignored.
(** The editor writes version 1, but reads a text with version 2. *)
Theorem C83_refuted : forall cfg, exists text nodes ed, deserialize_input_nodes 4294967295 text = Some nodes /\
  (forall nodes', serialize_input_nodes nodes' <> text) /\ (exists j data, json_text text j /\ j = JObj [(lit "version", JNum 2); (lit "data", data)]) /\
  step (json_env cfg) (editor_new _) (OpPaste text true) = Ok (ed, OutNone _) /\ ed_input ed = nodes.
Proof.
  intros cfg. exists (lit "{""version"":2,""data"":[{""Symbol"":""a""}]}"), [sym "a"]. both_profiles; eexists; (split; [vm_compute; reflexivity|]); (split; [|split; [|split; [vm_compute; reflexivity|reflexivity]]]).
  1, 3: intros nodes' E; unfold serialize_input_nodes in E; cbn in E; discriminate E.
  all: eexists; eexists; (split; [apply read_json_iff; vm_compute; reflexivity|reflexivity]).
Qed.
Print Assumptions C83_refuted.
