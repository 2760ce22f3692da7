(** Notions for the properties of the controllers, independent of their code. *)
From Verif Require Import PyBase PyDict Wrap_Model Ctl_Model Ctl_Model2.
Local Open Scope R_scope.

(** Component [k] of an array. *)
Definition comp (k : nat) (l : list R) : R := nth k l 0.

(** Length of a vector relative to limits: the euclidean norm of the vector of quotients. *)
Definition rel_length (lim v : list R) : R := sqrt (rsum (map2 (fun x l => (x / l) * (x / l)) v lim)).

(** A controller used for a history of states and references; no call may raise. *)
Fixpoint cc_run (c : cctl) (ins : list (list R * list R)) : res cctl :=
  match ins with
  | [] => Ok c
  | (s, r) :: ins' => let (c', o) := current_control c s r in do u <- o; cc_run c' ins'
  end.

(** The voltage the controller computes before clipping. *)
Definition command (c : cctl) (s r : list R) : res (list R) :=
  do u <- snd (base_call (cc_base c) s r); if cc_dec c then emf_call (cc_emf c) s u else Ok u.

(** Shapes of a tuned controller for [n] currents. *)
Definition clip_shape (n : nat) (c : clip) : Prop :=
  match c with
  | CAbs lo hi => length lo = n /\ length hi = n
  | CSq lim _ => length lim = n
  | CComb lim lo hi _ => n = 3%nat /\ length lim = 2%nat /\ length lo = 1%nat /\ length hi = 1%nat
  end.
Definition emf_shape (n : nat) (f : emf) : Prop :=
  length (ef_l f) = n /\ length (ef_cur f) = n /\
  match ef_kind f with
  | EPlain => length (ef_psi f) = n
  | EEesm => n = 3%nat /\ length (ef_dec f) = n /\ length (ef_act f) = n /\ length (ef_cidx f) = n
  | EInd => n = 2%nat
  end.
Definition base_shape (n : nat) (b : base) : Prop :=
  length (b_p b) = n /\ length (b_i b) = n /\ length (b_int b) = n /\ (exists idx, b_idx b = Some idx /\ length idx = n) /\
  match b_kind b with KPI => True | KPID => length (b_d b) = n /\ length (b_last b) = n | _ => False end.
Definition shaped (n : nat) (c : cctl) : Prop :=
  base_shape n (cc_base c) /\ (cc_dec c = true -> emf_shape n (cc_emf c)) /\ clip_shape n (cs_clip (cc_clip c)) /\ length (aw_idx (cc_aw c)) = n.

(** Numbers of steps between resets of the environment; the first entry counts the steps before the first reset. *)
Fixpoint lengths {A} (evs : list (event A)) : list nat :=
  match evs with
  | [] => [O]
  | EvStep _ :: l => match lengths l with n :: ns => Datatypes.S n :: ns | [] => [] end
  | EvReset :: l => O :: lengths l
  | EvCReset :: l => lengths l
  end.
(** Lengths of the episodes of a log that begins with a reset; the last one may be unfinished. *)
Definition episode_lengths {A} (evs : list (event A)) : list nat := tl (lengths evs).
Definition steps {A} (evs : list (event A)) : nat := length (filter (fun e => match e with EvStep _ => true | _ => false end) evs).
(** Each reset of the environment is followed by one of the controller, and there are no others. *)
Fixpoint resets_paired {A} (evs : list (event A)) : bool :=
  match evs with
  | [] => true
  | EvReset :: EvCReset :: l => resets_paired l
  | EvStep _ :: l => resets_paired l
  | _ => false
  end.

(** The action belongs to the action space. *)
Definition action_valid (sp : aspace) (a : action) : Prop :=
  match sp, a with
  | SDisc n, ADisc x => (0 <= x < n)%Z
  | SMulti nvec, AMulti l => Forall2 (fun x n => (0 <= x < n)%Z) l nvec
  | SBox n, ABox l => length l = n /\ Forall (fun x => -1 <= x <= 1) l
  | _, _ => False
  end.

(** A bound of the outputs a clipping stage lets pass unchanged. *)
Definition clip_bound (k : nat) (c : clip) : R :=
  match c with
  | CAbs lo hi => Rmax (Rabs (comp k lo)) (Rabs (comp k hi))
  | CSq lim _ => Rabs (comp k lim)
  | CComb lim lo hi _ => if Nat.ltb k 2 then Rabs (comp k lim) else Rmax (Rabs (comp 0 lo)) (Rabs (comp 0 hi))
  end.
(** Limits are not zero, margins are proper. *)
Definition clip_proper (n : nat) (c : clip) : Prop :=
  match c with
  | CAbs lo hi => forall k, (k < n)%nat -> comp k lo <= comp k hi
  | CSq lim m => 0 <= m < 1 /\ forall k, (k < n)%nat -> comp k lim <> 0
  | CComb lim lo hi m => 0 <= m < 1 /\ (forall k, (k < 2)%nat -> comp k lim <> 0) /\ comp 0 lo <= comp 0 hi
  end.
(** In a history: the k-th control error is at most [E], and the decoupling adds at most [F] to the k-th voltage. *)
Fixpoint mild (k : nat) (E F : R) (c : cctl) (ins : list (list R * list R)) : Prop :=
  match ins with
  | [] => True
  | (s, r) :: l =>
      Rabs (comp k r - comp (nth k (aw_idx (cc_aw c)) O) s) <= E /\
      (forall u y, snd (base_call (cc_base c) s r) = Ok u -> command c s r = Ok y -> Rabs (comp k y - comp k u) <= F) /\
      mild k E F (fst (current_control c s r)) l
  end.

(** An environment with consistent arrays: positive limits, and bounds of the normalised observations within [-1, 1]. *)
Definition env_proper (e : cenv) : Prop :=
  length (ce_low e) = length (ce_limits e) /\ length (ce_high e) = length (ce_limits e) /\
  forall k, (k < length (ce_limits e))%nat -> 0 < comp k (ce_limits e) /\ -1 <= comp k (ce_low e) <= comp k (ce_high e) /\ comp k (ce_high e) <= 1.

(** What the k-th integrator should gain in a history: [tau] times the control error of each step whose k-th output is not clipped. *)
Fixpoint gained (k : nat) (c : cctl) (ins : list (list R * list R)) : R :=
  match ins with
  | [] => 0
  | (s, r) :: l =>
      match command c s r with
      | Ok y => match clipped (cs_clip (cc_clip c)) y with
                | Ok v => if req (comp k v) (comp k y) then aw_tau (cc_aw c) * (comp k r - comp (nth k (aw_idx (cc_aw c)) O) s) else 0
                | Err _ => 0
                end
      | Err _ => 0
      end + gained k (fst (current_control c s r)) l
  end.
(** The k-th output is clipped in every step. *)
Fixpoint saturated (k : nat) (c : cctl) (ins : list (list R * list R)) : Prop :=
  match ins with
  | [] => True
  | (s, r) :: l => (forall y v, command c s r = Ok y -> clipped (cs_clip (cc_clip c)) y = Ok v -> comp k v <> comp k y) /\ saturated k (fst (current_control c s r)) l
  end.
