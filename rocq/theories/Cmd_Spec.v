(** The voltages that an action commands, and the names they are observed by. *)
From Verif Require Import PyBase Conv_Spec Wrap_Model Preset_Model Full_Spec.
Local Open Scope string_scope. Local Open Scope list_scope. Local Open Scope R_scope.

(** One converter, in parts of the supply voltage.  A four-quadrant converter outputs -1 to 1
    (switched: 1 for action 1, -1 for action 2, else 0), a bridge half the supply voltage up or
    down in each phase (switched: bits 2, 1 and 0 of the action). *)
Definition commanded_cont (e : elementary) (l : list R) : list R :=
  match e with ContB6 | FinB6 => map (fun x => clipped x (-1) 1 / 2) l | Cont4 | Fin4 => map (fun x => clipped x (-1) 1) l end.
Definition commanded_fin (e : elementary) (n : Z) : list R :=
  match e with
  | Cont4 | Fin4 => [if (n =? 1)%Z then 1 else if (n =? 2)%Z then -1 else 0]
  | ContB6 | FinB6 => map (fun b => if Z.testbit n b then /2 else -/2) [2; 1; 0]%Z
  end.
(** Several converters side by side: one number each, or consecutive parts of the vector. *)
Definition channels (e : elementary) : nat := match e with Cont4 | Fin4 => 1 | ContB6 | FinB6 => 3 end.
Fixpoint commanded_parts (es : list elementary) (l : list R) : list R :=
  match es with [] => [] | e :: es' => commanded_cont e (firstn (channels e) l) ++ commanded_parts es' (skipn (channels e) l) end.
Fixpoint commanded_numbers (es : list elementary) (ns : list Z) : list R :=
  match es, ns with e :: es', n :: ns' => commanded_fin e n ++ commanded_numbers es' ns' | _, _ => [] end.
Definition commanded (c : conv_class) (a : action) : list R :=
  match c, a with
  | Single e, ADisc n => commanded_fin e n
  | Single e, ABox l => commanded_cont e l
  | Multi _ es, AMulti ns => commanded_numbers es ns
  | Multi _ es, ABox l => commanded_parts es l
  | _, _ => []
  end.

(** The voltages at the terminals of a motor, in the order of the converter outputs. *)
Definition terminals (m : motor_class) : list string :=
  match m with
  | PermExDc | SeriesDc | ShuntDc => ["u"]
  | ExtExDc => ["u_a"; "u_e"]
  | Pmsm | Synrm => ["u_a"; "u_b"; "u_c"]
  | Eesm => ["u_a"; "u_b"; "u_c"; "u_e"]
  | Scim => ["u_sa"; "u_sb"; "u_sc"]
  | Dfim => ["u_sa"; "u_sb"; "u_sc"; "u_ra"; "u_rb"; "u_rc"]
  end.
(** The names of the observed states. *)
Definition observed_names (p : preset) (f : option (list string)) : list string :=
  match f with None | Some [] => all_names p | Some l => l end.
