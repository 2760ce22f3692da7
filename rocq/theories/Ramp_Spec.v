(** Notions for the properties of the ramping callback, independent of its code. *)
From Verif Require Import PyBase RefGen_Model Ramp_Model.
Local Open Scope R_scope.

(** How often the chosen kind of event happens in a history. *)
Definition events (time : string) (ops : list env_op) : nat :=
  length (filter (fun o => match o with EStep => String.eqb time "step" | EReset => String.eqb time "episode" end) ops).

(** The margin after [k] widenings in closed form. *)
Definition ramped (initial maximum : R * R) (step : R) (k : nat) : R * R :=
  match k with
  | O => initial
  | _ => (Rmax (fst initial - INR k * step) (fst maximum), Rmin (snd initial + INR k * step) (snd maximum))
  end.

(** [a] lies in [b]. *)
Definition within (a b : R * R) : Prop := fst b <= fst a /\ snd a <= snd b.

(** The generators the callback acts on: one sub-episoded one, or a switched one made of
    them; [P] for each of those. *)
Inductive all_subs {N} (P : sub N -> Prop) : gen N -> Prop :=
| al_sub s : P s -> all_subs P (GSub s)
| al_sw w subs : Forall (fun x => exists s, x = GSub s /\ P s) subs -> all_subs P (GSwitched w subs).
Definition has_margin {N} (m : R * R) (s : sub N) : Prop := s_margin s = LmPair (fst m) (snd m).
(** No reference drawn yet. *)
Definition fresh_sub {N} (s : sub N) : Prop := s_ref s = None.
