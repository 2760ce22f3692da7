(** Reproducibility of whole environments: what a solver must forget, and what two runs are
    compared by. *)
From Verif Require Import PyBase Conv_Model Solver_Model Scipy_Model Scipy_Spec Env_Model Full_Model.

(** The calls a physical system makes on its solver: no change of the equation. *)
Definition keeps_eq {U J} (o : sop U J) : Prop := match o with SEq _ _ => False | _ => True end.
(** Integrations one after the other, each with its own inputs. *)
Definition advances {E U J} (so : solver_if E U J) (l : list (U * R)) (e : E) : E :=
  fold_left (fun e x => fst (advance_solver so (fst x) (snd x) e)) l e.
(** Setting an initial value makes a solver forget what it was used for: time, state and all
    later results depend on the initial value and on what is asked for since then. *)
Definition solver_forgets (s : any_solver) : Prop :=
  forall U (f : rhs U) (h h' : list (sop U (an_jac s U))) y t (l : list (U * R)), Forall keeps_eq h -> Forall keeps_eq h' ->
  let so := an_if s U in
  let e0 := so_equation so f (an_jacobian s U) (an_new s U) in
  let e := advances so l (fst (so_initial so y t (s_run so h e0))) in
  let e' := advances so l (fst (so_initial so y t (s_run so h' e0))) in
  so_t so e = so_t so e' /\ so_y so e = so_y so e' /\ forall p t1, snd (advance_solver so p t1 e) = snd (advance_solver so p t1 e').

(** Seeding with [z] leads to the same random numbers whatever was drawn before (the streams
    of the initial states; those of the reference generators are set by [g_reseed]). *)
Definition seed_decides (d : data) (z : option Z) : Prop := forall k k', d_reseed d z k = d_reseed d z k'.

(** What a user sees of a history: each call and its outcome. *)
Definition outcomes {Act Ref Obs P G W} (sys : system Act Ref Obs P G W) (ops : list (op Act G W)) (w : world Act Ref P G W) : list (op Act G W * outcome Obs) :=
  snd (Env_Model.run sys ops w).
