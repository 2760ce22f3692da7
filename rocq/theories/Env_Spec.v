(** Specification of the environment life cycle in terms of what a user sees:
    the list of calls with their outcomes. *)
From Verif Require Import PyBase Env_Model.

Section Spec.
Context {Act Ref Obs P G W : Type}.

Notation history := (list (op Act G W * outcome Obs)).

(** "A reset is required": from construction on; after a step that returned
    terminated=True; after replacing reference generator or reward function;
    until the next reset.  A call that raised changes nothing. *)
Definition after (need : bool) (h : op Act G W * outcome Obs) : bool :=
  match h with
  | (Reset _, DidReset _) => false
  | (Step _, DidStep o) => so_terminated o
  | (SetReferenceGenerator _, _) => true
  | (SetRewardFunction _, _) => true
  | _ => need
  end.
Definition reset_required (h : history) : bool := fold_left after h true.

(** The same with failing modules: the guaranteed part.  From construction, a
    terminating step or a replaced module on, until reset is *called* (even if
    that call fails), steps are refused. *)
Definition lock (b : bool) (h : op Act G W * outcome Obs) : bool :=
  match h with
  | (Reset _, _) => false
  | (Step _, DidStep o) => so_terminated o
  | (SetReferenceGenerator _, _) => true
  | (SetRewardFunction _, _) => true
  | _ => b
  end.
Definition locked (h : history) : bool := fold_left lock h true.

(** Number of steps executed since the last reset (if there was one). *)
Definition count (n : nat) (h : op Act G W * outcome Obs) : nat :=
  match h with
  | (Reset _, DidReset _) => O
  | (Step _, DidStep _) => S n
  | _ => n
  end.
Definition steps_since_reset (h : history) : nat := fold_left count h O.

(** No module call and no callback ever raises. *)
Record never_fails (sys : system Act Ref Obs P G W) : Prop := {
  nf_ps_reset : forall p, exists v, snd (ps_reset sys p) = Ok v;
  nf_ps_sim : forall p a, exists v, snd (ps_simulate sys p a) = Ok v;
  nf_rg_reset : forall g s, exists v, snd (rg_reset sys g s) = Ok v;
  nf_rg_get : forall g s, exists v, snd (rg_get sys g s) = Ok v;
  nf_rg_obs : forall g s, exists v, snd (rg_obs sys g s) = Ok v;
  nf_rw_reset : forall x s r, exists v, snd (rw_reset sys x s r) = Ok v;
  nf_rw_reward : forall x s r k a d, exists v, snd (rw_reward sys x s r k a d) = Ok v;
  nf_cm : forall s, exists v, cm_check sys s = Ok v;
  nf_cb : forall tr i ev, cb_raises sys tr i ev = None
}.

(** Every state vector the physical system returns has [n] entries. *)
Definition states_have_length (sys : system Act Ref Obs P G W) (n : nat) : Prop :=
  (forall p p' v, ps_reset sys p = (p', Ok v) -> length v = n) /\
  (forall p a p' v, ps_simulate sys p a = (p', Ok v) -> length v = n).

(** The contract of [k]: 0 after reset, one more after each simulation; seeding
    does not touch it (SCMLSystem fulfils it, see PhysSys). *)
Definition counts_steps (sys : system Act Ref Obs P G W) : Prop :=
  (forall p p' v, ps_reset sys p = (p', Ok v) -> ps_k sys p' = O) /\
  (forall p a p' v, ps_simulate sys p a = (p', Ok v) -> ps_k sys p' = S (ps_k sys p)).

(** One event delivered to callbacks 0..n-1 in order. *)
Definition to_all (n : nat) (ev : event Act Ref) : list (delivery Act Ref) :=
  map (fun i => (i, ev)) (seq 0 n).

(** [s] is an initial part of [t]. *)
Definition is_prefix {A} (s t : list A) := exists r, t = s ++ r.

End Spec.

Section Protocol.
Context {Act Ref Obs P G W : Type}.

(** The callback protocol: [protocol n filt k h t] says that with [n] callbacks
    and [k] steps since the last reset the history [h] causes exactly the
    deliveries [t]. *)
Inductive protocol (n : nat) (filt : list nat) :
  nat -> list (op Act G W * outcome Obs) -> list (delivery Act Ref) -> Prop :=
| prot_nil k : protocol n filt k [] []
| prot_reset k s o st ref h t :
    select filt st = Ok (fst o) ->
    protocol n filt 0 h t ->
    protocol n filt k ((Reset s, DidReset o) :: h)
      (to_all n OnResetBegin ++ to_all n (OnResetEnd st ref) ++ t)
| prot_step k a o st ref h t :
    select filt st = Ok (so_state o) ->
    protocol n filt (S k) h t ->
    protocol n filt k ((Step a, DidStep o) :: h)
      (to_all n (OnStepBegin k a) ++
       to_all n (OnStepEnd (S k) st ref (so_reward o) (so_terminated o)) ++ t)
| prot_refused k a h t :
    protocol n filt k h t ->
    protocol n filt k ((Step a, Raised AssertionError) :: h) t
| prot_set_rg k g h t :
    protocol n filt k h t ->
    protocol n filt k ((SetReferenceGenerator g, DidOther) :: h) t
| prot_set_rw k r h t :
    protocol n filt k h t ->
    protocol n filt k ((SetRewardFunction r, DidOther) :: h) t
| prot_close k h t :
    protocol n filt k h t ->
    protocol n filt k ((Close, DidOther) :: h) (to_all n OnClose ++ t).

End Protocol.
