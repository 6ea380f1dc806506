(** Vocabulary for what users do in a page. *)
From Coq Require Import String.
From Verif Require Import Base Str Grid Node Focus Edit Caret Autocomplete Editor Rules NameMap Syntax Pratt Grammar SyntaxFind Render Layout Json FromMathML
  Spec SpecSyntax SpecMove SpecEditor SpecRender SpecDom Component SpecComponent RenderFacts PropsRender.
Open Scope list_scope.
Open Scope nat_scope.
Set Implicit Arguments.

(** Typing [data]: the event and the timer it starts *)
Definition type_events (data : str) : list Event := [EvBeforeInput (InsertText (Some data)); EvTimer].
(** Pressing the mouse button at [p], moving to each of [ps], releasing the button at [p'] *)
Definition drag_events (p : Point) (ps : list Point) (p' : Point) : list Event := EvPointerDown true p :: map (EvPointerMove true) ps ++ [EvPointerUp true p'].
(** The keys for undo and redo *)
Definition undo_keys (e : Event) : bool := match e with EvKey KeyUndo | EvKey KeyRedo => true | _ => false end.
(** How many undo steps an event records at most *)
Definition steps_of (c : Component) (e : Event) : nat := match e with EvTimer => 2 * List.length (co_tasks c) | _ => 2 end.
(** No completely typed token ends at [pos]. *)
Definition calm (env : Env SyntaxNode) (doc : InputRow) (pos : MinPos) : Prop :=
  forall ed : MathEditor SyntaxNode, ed_input ed = doc -> ed_caret ed = collapsed pos -> ~ autocorrect_pending env ed.
(** A click at a point gives a position of the document. *)
Definition hits (xs xc : N -> bool) (doc : InputRow) (p : Point) (pos : MinPos) : Prop :=
  exists x, draw xs xc doc = Ok x /\ get_layout_position (to_bounds p) (to_place p) x = Ok (mp_row pos, mp_offset pos).
(** None of the events does what is known to fail, see [fine_event]: every operation of the editor is
    known to succeed, and the documents can be drawn, for sure if they are tidy. *)
Definition all_fine (env : Env SyntaxNode) (normalize : str -> str) (segment : str -> list str) (c : Component) (l : list Event) : Prop :=
  fine_all env default_renderers normalize segment (fine_op env default_renderers) c l \/ fine_all env default_renderers normalize segment (safe_op env tidy) c l.
