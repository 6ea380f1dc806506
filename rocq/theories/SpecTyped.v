(** What is typed on a keyboard (C99). *)
From Verif Require Import Base Str Node Component.
Set Implicit Arguments.

(** The text behind which the keys are typed, if there is always something to delete for Backspace. Delete is not used at the end. *)
Fixpoint after_keys (segment : str -> list str) (text : list str) (keys : list InputType) : option (list str) :=
  match keys with
  | [] => Some text
  | InsertText (Some data) :: keys => after_keys segment (text ++ segment data) keys
  | DeleteBackward :: keys => match text with [] => None | _ => after_keys segment (removelast text) keys end
  | DeleteForward :: _ => None
  | InsertText None :: keys | OtherInput :: keys => after_keys segment text keys
  end.
(** Keys, and the timer, which may come at any time *)
Definition key_or_timer (e : Event) : Prop := match e with EvBeforeInput _ | EvTimer => True | _ => False end.
Definition keys_of (l : list Event) : list InputType := flat_map (fun e => match e with EvBeforeInput t => [t] | _ => [] end) l.
