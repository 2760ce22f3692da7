(** Specification vocabulary for the power electronic converters. *)
From Verif Require Import PyBase Conv_Model.
From Coq Require Export Sorted.

(** A point lies in the box [low, high]. *)
Definition in_box (low high u : list R) : Prop := Forall2 Rle low u /\ Forall2 Rle u high.

(** The half bridges of an elementary converter. *)
Definition legs (c : fin) : list f2 :=
  match c with
  | F1 _ => []
  | F2 c => [c]
  | F4 c => [f4_a c; f4_b c]
  | F6 c => [f6_a c; f6_b c; f6_c c]
  end.

(** Switching states: 0 both transistors off, 1 upper on, 2 lower on.  A direct
    change between upper and lower is a shoot-through. *)
Definition shoot_through (x y : Z) : Prop := (x = 1 /\ y = 2 \/ x = 2 /\ y = 1)%Z.
Definition safe_change (x y : Z) : Prop := ~ shoot_through x y.

(** How a drive uses a converter in one sampling period: the action is set at [t]
    and the voltage is requested at [t] first and then at any later times.  A
    reset may come between periods. *)
Inductive use :=
| Period (a : Z) (t : R) (i : list R) (later : list (list R * R))
| UReset.
Definition use_ok (dim : nat) (u : use) : Prop :=
  match u with
  | Period _ _ i later => length i = dim /\ Forall (fun it => length (fst it) = dim) later
  | UReset => True
  end.
Fixpoint conv_states (c : fin) (l : list (list R * R)) : list fin :=
  match l with
  | [] => []
  | (i, t') :: l' => let c' := fst (fin_convert c i t') in c' :: conv_states c' l'
  end.
Definition use_states (c : fin) (u : use) : list fin :=
  match u with
  | Period a t i later =>
      let (c1, r) := fin_set_action c a t in
      match r with
      | Err _ => [c1]                          (* refused action: the period is not simulated *)
      | Ok _ => conv_states c1 ((i, t) :: later)
      end
  | UReset => [fst (fin_reset c)]
  end.
(** All states of the converter over a history. *)
Fixpoint states_over (c : fin) (us : list use) : list fin :=
  match us with
  | [] => []
  | u :: us' => let l := use_states c u in l ++ states_over (last l c) us'
  end.
Definition leg_states (c : fin) : list Z := map f2_sw (legs c).

(** Consecutive elements of a list are related. *)
Fixpoint chain {A} (Rel : A -> A -> Prop) (x : A) (l : list A) : Prop :=
  match l with [] => True | y :: l' => Rel x y /\ chain Rel y l' end.

(** What an ideal half bridge puts out for a switching state. *)
Definition ideal_half_bridge (sw : Z) (i : R) : R :=
  if (sw =? 1)%Z then 1 else if (sw =? 2)%Z then 0 else if rlt i 0 then 1 else 0.

(** Power put out with voltages [u] and currents [i] (per unit of supply voltage). *)
Definition power (u i : list R) : R := rsum (map2 Rmult u i).

(** Clipping to an interval. *)
Definition clipped (x lo hi : R) : R := if rlt x lo then lo else if rlt hi x then hi else x.

(** A schedule of the sampling period that starts at [t]: strictly increasing
    times in (t, t+tau], ending with t+tau. *)
Definition schedule (t tau : R) (ts : list R) : Prop :=
  StronglySorted Rlt ts /\ Forall (fun x => t < x <= t + tau) ts /\ exists pre, ts = pre ++ [t + tau].

(** Consecutive slices of a list (a multi converter hands currents to its parts
    by their dimensions). *)
Fixpoint slices {A} (dims : list nat) (l : list A) : list (list A) :=
  match dims with [] => [] | d :: ds => firstn d l :: slices ds (skipn d l) end.

(** Action tables as documented in the converters' docstrings (no interlocking):
    317-331 (4QC), 751-781 (B6).  The 1QC and 2QC: 217-233, 252-264. *)
Definition table_output (k : fin_kind) (a : Z) (i : list R) : list R :=
  match k, i with
  | K1, i0 :: _ => [if rle 0 i0 then (if (a =? 1)%Z then 1 else 0) else 1]
  | K2, i0 :: _ => [if (a =? 1)%Z then 1 else if (a =? 2)%Z then 0 else if rlt i0 0 then 1 else 0]
  | K4, _ :: _ => [if (a =? 1)%Z then 1 else if (a =? 2)%Z then -1 else 0]
  | K6, _ :: _ :: _ :: _ => map (fun b => if Z.testbit a b then /2 else -/2) [2; 1; 0]%Z
  | _, _ => []
  end.
