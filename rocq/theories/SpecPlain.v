(** Specifications about the same editor without rules. *)
From Verif Require Import Base Str Grid Node Focus Edit Caret Autocomplete Editor.

(** The editor without rules for autocompletion *)
Definition without_rules {SyntaxNode : Type} (env : Env SyntaxNode) : Env SyntaxNode :=
  mkEnv (env_cfg env) [] (env_parse env) (env_serialize env) (env_deserialize env).
(** Operations on the list of suggestions *)
Definition of_popup (op : Op) : bool :=
  match op with OpOpenAutocomplete | OpFinishAutocomplete _ | OpMoveInAutocomplete _ => true | _ => false end.
(** Equal but for the rule that is remembered *)
Definition same_but_rule {SyntaxNode : Type} (a b : MathEditor SyntaxNode) : Prop :=
  ed_input a = ed_input b /\ ed_parsed a = ed_parsed b /\ ed_caret a = ed_caret b /\ ed_selection_mode a = ed_selection_mode b /\ ed_undo a = ed_undo b.

(** Operations that write to the history even if they change nothing: replacing by nothing else, and removing the selection *)
Definition writes_always {SyntaxNode : Type} (op : Op) (out : Out SyntaxNode) : Prop :=
  match op with
  | OpInsertAtCaret _ | OpSpliceAtRange _ _ | OpRemoveAtCaret RemoveRange => True
  | OpPaste _ _ | OpFinishAutocomplete _ => out = OutNone _
  | _ => False
  end.
