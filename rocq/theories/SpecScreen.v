(** What is on the screen. *)
From Coq Require Import String.
From Verif Require Import Base Str Grid Node Focus Edit Caret Autocomplete Editor Rules NameMap Syntax Pratt Grammar SyntaxFind Render Layout Json FromMathML
  Spec SpecEditor Component SpecComponent.
Open Scope list_scope.
Open Scope nat_scope.
Set Implicit Arguments.

Section Screen.
Variable env : Env SyntaxNode.
Variable renderers : Renderers.
Variable normalize : str -> str.
Variable segment : str -> list str.
(** The elements on the screen are those that are made from [doc]. *)
Definition drawn_from (c : Component) (doc : InputRow) : Prop :=
  exists t x, env_parse env doc = Ok t /\ render_all renderers t = Ok x /\ co_drawn c = get_elements x.
(** No handler throws. *)
Fixpoint unthrown (c : Component) (l : list Event) : Prop :=
  match l with
  | [] => True
  | e :: l => snd (dispatch env renderers normalize segment e c) = Ok tt /\ unthrown (fst (dispatch env renderers normalize segment e c)) l
  end.
(** The document after the last of the events that draws it anew, if there is one, and [d] otherwise *)
Fixpoint last_drawn (c : Component) (d : option InputRow) (l : list Event) : option InputRow :=
  match l with
  | [] => d
  | e :: l => let c' := fst (dispatch env renderers normalize segment e c) in last_drawn c' (if redraws c e then document c' else d) l
  end.
End Screen.
