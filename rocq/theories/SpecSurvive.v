(** Exactly when a handler throws and when the editor is lost (C61, C62). *)
From Coq Require Import String.
From Verif Require Import Base Str Grid Node Focus Edit Caret Autocomplete Editor Rules NameMap Syntax SyntaxFind Render Layout FromMathML
  Spec SpecMove SpecEditor SpecSafety SpecRender Component SpecComponent.
Open Scope list_scope.
Open Scope nat_scope.
Set Implicit Arguments.

Section Known.
Variable env : Env SyntaxNode.
Variable renderers : Renderers.
Variable normalize : str -> str.
Variable segment : str -> list str.
(** Tidy content and valid positions, and no token is left behind that would be corrected. This says nothing about panics. *)
Definition known (ed : MathEditor SyntaxNode) (op : Op) : Prop := proper_args tidy env ed op /\ keeps_caret env ed op.
(** The operations of this event are such; rows can be clicked. Nothing is assumed about what is copied, about the text that is pasted
    or the attribute that is set. *)
Definition known_event (c : Component) (e : Event) : Prop :=
  match e with
  | EvCopy _ => True
  | EvPaste (Some (json, text)) => fine_opt known c (Some (OpPaste (match json with [] => text | _ => json end) true))
  | EvConnect m | EvAttribute m => forall math root errors ed, m = Some math -> from_element normalize segment math = Ok (root, errors) ->
      co_editor c = Some ed -> known ed (OpSpliceAtRange (mkMinRange [] 0 (List.length (ed_input ed))) root)
  | _ => fine_event env renderers normalize segment known c e
  end.
(** All events are such, and what is pasted or set can be read. *)
Fixpoint known_all (c : Component) (l : list Event) : Prop :=
  match l with
  | [] => True
  | e :: l => (e = EvCopy true \/ fine_event env renderers normalize segment known c e) /\ known_all (fst (dispatch env renderers normalize segment e c)) l
  end.
End Known.
