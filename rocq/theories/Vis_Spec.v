(** Histories of plots and what they should show, independent of the arrays of the model. *)
From Verif Require Import PyBase Vis_Model.
Local Open Scope list_scope. Local Open Scope R_scope.

(** The calls a single plot gets. *)
Inductive pop := PTell (ev : event) | PInit | PRender | PReset.
Definition t_op (o : pop) (p : tplot) : call tplot :=
  match o with
  | PTell ResetBegin => done (t_on_reset_begin p)
  | PTell ResetEnd => done p
  | PTell (StepBegin a) => t_on_step_begin a p
  | PTell (StepEnd _ st rf rw tm) => t_on_step_end st rf rw tm p
  | PInit => t_initialize p
  | PRender => t_render p
  | PReset => t_reset_data p
  end.
Definition e_op (o : pop) (p : eplot) : call eplot :=
  match o with
  | PTell ResetBegin => e_on_reset_begin p
  | PTell ResetEnd | PTell (StepBegin _) => done p
  | PTell (StepEnd k _ _ rw _) => done (e_on_step_end k rw p)
  | PInit => done (e_initialize p)
  | PRender => e_render p
  | PReset => done (e_reset_data p)
  end.
Definition s_op (o : pop) (p : splot) : call splot :=
  match o with
  | PTell ResetBegin | PTell ResetEnd => done p
  | PTell (StepBegin _) => done (s_on_step_begin p)
  | PTell (StepEnd _ _ _ _ tm) => done (s_on_step_end tm p)
  | PInit => s_initialize p
  | PRender => s_render p
  | PReset => done (s_reset_data p)
  end.
Fixpoint p_run {P} (op : pop -> P -> call P) (ops : list pop) (p : P) : call P :=
  match ops with [] => done p | o :: ops' => andthen (op o p) (p_run op ops') end.

(** ** Steps since the data were last reset *)
Record sample := { sa_state : list R; sa_ref : list R; sa_reward : R; sa_term : bool }.
Definition steps_from (acc : list sample) (ops : list pop) : list sample :=
  fold_left (fun acc o => match o with
                          | PReset => []
                          | PTell (StepEnd _ st rf rw tm) => acc ++ [{| sa_state := st; sa_ref := rf; sa_reward := rw; sa_term := tm |}]
                          | _ => acc
                          end) ops acc.
Definition steps (ops : list pop) : list sample := steps_from [] ops.

(** ** Sliding windows *)
(** [buf] is an array of [w] places, filled with [init] and then overwritten cyclically by the
    values, the first one at place [off]: the last [w] values are there, each at its own
    place, and a place not used by them is untouched. *)
Definition ring {A} (off w : nat) (init vals buf : list A) : Prop :=
  length buf = w /\
  (forall i v, nth_error vals i = Some v -> (length vals <= i + w)%nat -> nth_error buf ((i + off) mod w) = Some v) /\
  (forall j, (j < w)%nat -> (forall i, (i < length vals)%nat -> (length vals <= i + w)%nat -> ((i + off) mod w)%nat <> j) -> nth_error buf j = nth_error init j).
(** Times of the steps, the first one at [off * tau]. *)
Definition times (off : nat) (tau : R) (n : nat) : list R := map (fun i => INR (i + off) * tau) (seq 0 n).
Definition empty (w : nat) : list num := repeat None w.
(** The value of a state in physical units. *)
Definition physical (limit : R) (normalized : bool) (v : R) : R := if normalized then v * limit else v.
Definition state_at (i : nat) (l : list R) : R := nth i l 0.

(** ** Actions *)
(** A step with its action, or another call. *)
Inductive aop := AStep (a : act) (k : nat) (st rf : list R) (rw : R) (tm : bool) | AOther (o : pop).
Definition a_other (o : pop) : Prop := match o with PTell (StepBegin _) | PTell (StepEnd _ _ _ _ _) => False | _ => True end.
Definition a_fits (x : aop) : Prop := match x with AStep a _ _ _ _ _ => a <> ANone | AOther o => a_other o end.
Definition a_ops (l : list aop) : list pop := flat_map (fun x => match x with AStep a k st rf rw tm => [PTell (StepBegin a); PTell (StepEnd k st rf rw tm)] | AOther o => [o] end) l.
Definition a_upd (acc : list act) (x : aop) : list act := match x with AStep a _ _ _ _ _ => acc ++ [a] | AOther PReset => [] | AOther _ => acc end.
Definition actions (l : list aop) : list act := fold_left a_upd l [].
Definition shown_action (i : nat) (a : act) : num := match a with ANum v => Some v | AVec l => Some (state_at i l) | ANone => None end.

(** ** Interruptions of the time line *)
(** Every reset but the first ends an episode: by a violation (true) or by the user. *)
Fixpoint interruptions (tau : R) (k : nat) (last : option bool) (ops : list pop) : list (bool * R) :=
  match ops with
  | [] => []
  | PTell ResetBegin :: ops' => match last with Some b => [(b, INR k * tau)] | None => [] end ++ interruptions tau k (Some false) ops'
  | PTell (StepEnd _ _ _ _ tm) :: ops' => interruptions tau (S k) (Some tm) ops'
  | _ :: ops' => interruptions tau k last ops'
  end.
Definition of_kind (b : bool) (l : list (bool * R)) : list R := map snd (List.filter (fun x => Bool.eqb (fst x) b) l).
(** No [initialize] and no [reset_data]. *)
Definition running (o : pop) : Prop := match o with PTell _ | PRender => True | _ => False end.

(** ** Episodes *)
(** The rewards of the finished episodes and of the current one (None before the first reset).
    Steps before the first reset do not occur. *)
Definition episodes_from (acc : list (list R) * option (list R)) (ops : list pop) : list (list R) * option (list R) :=
  fold_left (fun acc o => match o with
                          | PTell ResetBegin => match snd acc with Some c => (fst acc ++ [c], Some []) | None => (fst acc, Some []) end
                          | PTell (StepEnd _ _ _ rw _) => match snd acc with Some c => (fst acc, Some (c ++ [rw])) | None => acc end
                          | _ => acc
                          end) ops acc.
Definition episodes (ops : list pop) : list (list R) * option (list R) := episodes_from ([], None) ops.
(** The environment passes the number of the step in its episode (core.py 356) and starts with
    a reset. *)
Fixpoint counted (k : option nat) (ops : list pop) : Prop :=
  match ops with
  | [] => True
  | PTell ResetBegin :: ops' => counted (Some 0%nat) ops'
  | PTell (StepEnd n _ _ _ _) :: ops' => match k with Some k => n = S k /\ counted (Some (S k)) ops' | None => False end
  | _ :: ops' => counted k ops'
  end.
Definition no_init (o : pop) : Prop := match o with PInit | PReset => False | _ => True end.
Definition no_reset (o : pop) : Prop := match o with PReset => False | _ => True end.
Definition mean (l : list R) : R := rsum l / INR (length l).

(** ** Violations *)
(** Numbers of the steps that violated a constraint. *)
Definition violations_from (acc : nat * list nat) (ops : list pop) : nat * list nat :=
  fold_left (fun acc o => match o with
                          | PTell (StepBegin _) => (S (fst acc), snd acc)
                          | PTell (StepEnd _ _ _ _ true) => (fst acc, snd acc ++ [fst acc])
                          | _ => acc
                          end) ops acc.
Definition violations (ops : list pop) : list nat := snd (violations_from (0%nat, []) ops).
(** The staircase: before and after each violation. *)
Fixpoint stairs_x (l : list nat) : list R := match l with [] => [] | n :: l' => INR n - 1 :: INR n :: stairs_x l' end.
Fixpoint stairs_y (c : nat) (l : list nat) : list num := match l with [] => [] | _ :: l' => Some (INR c) :: Some (INR (S c)) :: stairs_y (S c) l' end.

(** ** Whole dashboards *)
(** The events fit the environment: [n] states, actions of the given kind with [m] entries. *)
Definition fits (n : nat) (discrete : bool) (m : nat) (ev : event) : Prop :=
  match ev with
  | StepBegin (ANum _) => discrete = true
  | StepBegin (AVec l) => discrete = false /\ length l = m
  | StepEnd _ st rf _ _ => length st = n /\ length rf = n
  | _ => True
  end.
Definition op_fits (n : nat) (discrete : bool) (m : nat) (resets : bool) (o : vop) : Prop :=
  match o with Tell ev => fits n discrete m ev | ResetFigures => resets = true | _ => True end.
(** Time plots as the dashboard creates them. *)
Inductive wanted (n : nat) (discrete : bool) (m : nat) : (nat -> tplot) -> Prop :=
| want_state : forall i limit nd rf, (i < n)%nat -> wanted n discrete m (fun w => state_plot w i limit nd rf)
| want_action : forall i, (discrete = true \/ (i < m)%nat) -> wanted n discrete m (fun w => action_plot w i discrete)
| want_reward : wanted n discrete m reward_plot.
(** Steps so far and at the last update. *)
Definition d_upd (acc : nat * nat) (o : vop) : nat * nat :=
  match o with Tell (StepEnd _ _ _ _ _) => (S (fst acc), snd acc) | Render | Force => (fst acc, fst acc) | _ => acc end.
Definition d_steps (ops : list vop) : nat * nat := fold_left d_upd ops (0%nat, 0%nat).

(** ** Printed episodes *)
(** An episode: rewards and termination of its steps. *)
Definition ep_ops (steps : list (R * bool)) : list cop :=
  flat_map (fun x => [CStepBegin (fst x); CStepEnd (S (fst x)) (fst (snd x)) (snd (snd x))]) (combine (seq 0 (length steps)) steps).
(** The user renders right after each reset. *)
Definition session (eps : list (list (R * bool))) : list cop := [CReset; CRender] ++ flat_map (fun e => ep_ops e ++ [CReset; CRender]) eps.
Definition report (no : nat) (e : list (R * bool)) : message := EpisodeEnd no (last (map snd e) false) (length e) (rsum (map fst e)).

(** No [reset_data]; rendering of one-line plots. *)
Definition kept (o : pop) : Prop := o <> PReset.
Definition zero_sample : sample := {| sa_state := []; sa_ref := []; sa_reward := 0; sa_term := false |}.

(** ** What the plots of a dashboard are told *)
(** The calls each plot gets from a dashboard with the given interval, step counter, update flag
    and open figures.  Nothing in it depends on the plot. *)
Fixpoint plot_calls (N k : Z) (upd opened : bool) (ops : list vop) : list pop :=
  match ops with
  | [] => []
  | Tell (StepEnd n st rf rw tm) :: ops' => PTell (StepEnd n st rf rw tm) :: plot_calls N (k + 1) (Z.eqb ((k + 1) mod N) 0 || upd) opened ops'
  | Tell ev :: ops' => PTell ev :: plot_calls N k upd opened ops'
  | Render :: ops' => (if opened then [] else [PInit]) ++ (if upd then [PRender] else []) ++ plot_calls N k false true ops'
  | Force :: ops' => (if opened then [] else [PInit]) ++ PRender :: plot_calls N k false true ops'
  | ResetFigures :: ops' => PReset :: plot_calls N k upd false ops'
  end.
Definition open_figures (d : dash) : bool := d_time_fig d || d_ep_fig d || d_step_fig d.
(** The events of a history. *)
Fixpoint events (ops : list vop) : list pop :=
  match ops with [] => [] | Tell ev :: ops' => PTell ev :: events ops' | _ :: ops' => events ops' end.
