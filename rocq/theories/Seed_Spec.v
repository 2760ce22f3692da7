(** Specification vocabulary for random streams. *)
From Verif Require Import PyBase Seed_Model.

(** The shape of a component tree: kinds of the components without any state. *)
Inductive shape := ShPlain | ShLeaf | ShScml (l : list shape) | ShMulti (l : list shape)
  | ShWrapped (s : shape).
Fixpoint shape_of {E} (c : comp E) : shape :=
  match c with
  | Plain => ShPlain
  | Leaf _ => ShLeaf
  | Scml _ l => ShScml (map shape_of l)
  | Multi _ l => ShMulti (map shape_of l)
  | Wrapped _ c' => ShWrapped (shape_of c')
  end.

(** [seeded_pos p s]: position [p] of a tree of shape [s] is a random component
    other than a physical system wrapper. *)
Fixpoint seeded_pos (p : list nat) (s : shape) : Prop :=
  match p with
  | [] => match s with ShPlain | ShWrapped _ => False | _ => True end
  | i :: p' =>
      match s with
      | ShScml l | ShMulti l => match nth_error l i with Some s' => seeded_pos p' s' | None => False end
      | ShWrapped s' => i = O /\ seeded_pos p' s'
      | _ => False
      end
  end.
Definition env_seeded_pos (p : list nat) (ss : list shape) : Prop :=
  match p with
  | [] => False
  | i :: p' => match nth_error ss i with Some s => seeded_pos p' s | None => False end
  end.

(** Any sequence of [next_generator] calls (at episode starts) on the tree. *)
Definition run_next {E} (ps : list (list nat)) (cs : list (comp E)) : list (comp E) :=
  fold_left (fun cs p => env_next p cs) ps cs.

(** The stream a component draws from. *)
Definition stream_at {E} (p : list nat) (cs : list (comp E)) : option (stream E) :=
  option_map (@r_gen E) (env_state_at p cs).
