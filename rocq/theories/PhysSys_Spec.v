(** Vocabulary for the physical systems. *)
From Verif Require Import PyBase Conv_Model Solver_Model PhysSys_Model.

(** What happens in one integration interval, seen from outside. *)
Record segment (C S U : Type) := {
  sg_from : R; sg_to : R;                (* times *)
  sg_y0 : list R; sg_y1 : list R;        (* ODE state at both ends *)
  sg_c0 : C; sg_c1 : C;                  (* converter at both ends *)
  sg_s0 : S; sg_s1 : S;                  (* supply at both ends *)
  sg_conv : list R; sg_sup : list R;     (* per-unit converter voltages, supply voltages *)
  sg_par : U }.                          (* input of the differential equation *)
Arguments sg_from {C S U}. Arguments sg_to {C S U}. Arguments sg_y0 {C S U}. Arguments sg_y1 {C S U}.
Arguments sg_c0 {C S U}. Arguments sg_c1 {C S U}. Arguments sg_s0 {C S U}. Arguments sg_s1 {C S U}.
Arguments sg_conv {C S U}. Arguments sg_sup {C S U}. Arguments sg_par {C S U}.

(** The segments lead from [t0, y0, c0, s0] to [t1, y1, c1, s1] without gap or overlap. *)
Fixpoint tiles {C S U} (t0 : R) (y0 : list R) (c0 : C) (s0 : S) (l : list (segment C S U)) (t1 : R) (y1 : list R) (c1 : C) (s1 : S) : Prop :=
  match l with
  | [] => t0 = t1 /\ y0 = y1 /\ c0 = c1 /\ s0 = s1
  | s :: l' => sg_from s = t0 /\ sg_y0 s = y0 /\ sg_c0 s = c0 /\ sg_s0 s = s0 /\ tiles (sg_to s) (sg_y1 s) (sg_c1 s) (sg_s1 s) l' t1 y1 c1 s1
  end.

(** Inside a segment of the period that starts at [tk]: the supply is asked for its
    voltage at [tk], loaded with the current the converter reports before it is asked
    for voltages; the converter is asked at the start of the segment with the currents
    read from the state at its start; every converter voltage is multiplied with every
    supply voltage, the products are turned into the input, and the solver (with [n]
    sub-steps) integrates over exactly this segment. *)
Definition segment_ok {C S A U V} (cv : conv_if C A) (sp : supply_if S) (f : rhs U) (n : nat) (tk : R)
    (view : list R -> res V) (cur : V -> list R) (volt : V -> list R -> res U) (s : segment C S U) : Prop :=
  exists v isup, view (sg_y0 s) = Ok v /\
    cv_i_sup cv (sg_c0 s) (cur v) = Ok isup /\
    sp_get sp (sg_s0 s) tk isup = (sg_s1 s, Ok (sg_sup s)) /\
    cv_convert cv (sg_c0 s) (cur v) (sg_from s) = (sg_c1 s, Ok (sg_conv s)) /\
    volt v (flat_map (fun a => map (fun b => a * b) (sg_sup s)) (sg_conv s)) = Ok (sg_par s) /\
    snd (integrate f {| eu_n := n; eu_t := sg_from s; eu_y := Some (sg_y0 s); eu_p := Some (sg_par s) |} (sg_to s)) = Ok (sg_y1 s).

(** Histories of resets and steps that raise nothing; [steps_since] counts the steps
    after the last reset. *)
Inductive op (A : Type) := OReset (init : res (list R * list R)) | OStep (a : A).
Arguments OReset {A}. Arguments OStep {A}.
Fixpoint run_ok {X A} (do_reset : res (list R * list R) -> X -> call X (list R)) (do_step : A -> X -> call X (list R))
    (ops : list (op A)) (x : X) : option X :=
  match ops with
  | [] => Some x
  | o :: ops' =>
      match (match o with OReset i => do_reset i x | OStep a => do_step a x end) with
      | (x', Ok _) => run_ok do_reset do_step ops' x'
      | (_, Err _) => None
      end
  end.
Fixpoint steps_since {A} (ops : list (op A)) (n : nat) : nat :=
  match ops with [] => n | OReset _ :: ops' => steps_since ops' 0 | OStep _ :: ops' => steps_since ops' (S n) end.

(** Congruence of angles. *)
Definition same_angle (a b : R) : Prop := exists k : Z, a = b + 2 * PI * IZR k.

(** Entry [k] of an observation. *)
Definition at_ (o : list R) (k : nat) (x : R) : Prop := nth_error o k = Some x.
