(** Properties C10-C13, C75, C76: constraints and the constraint monitor. *)
From Verif Require Import PyDictFacts Utils_Model Constraint_Model Constraint_Spec Constraint_Proofs.

(** *** C10: limit constraint *)
Theorem limit_constraint_semantics :
  forall o ps c state,
  NoDup (pi_names ps) -> (forall n, In n (pi_names ps) -> lower n = n) ->
  lc_set_modules (lc_new o) ps = Ok c -> length state = length (pi_names ps) ->
  exists v, lc_call c state = Ok v /\ (v = 0 \/ v = 1) /\
    (v = 1 <-> exists i name x, nth_error (pi_names ps) i = Some name /\
       observes (match o with ObsAllStr => ["all_states"%string] | ObsList l => l | ObsNone => [] end) name /\
       nth_error state i = Some x /\ 1 < Rabs x).
Proof. exact limit_semantics. Qed.
Print Assumptions limit_constraint_semantics.

Theorem limit_constraint_unknown_refused :
  forall l ps, NoDup (pi_names ps) -> ~ In "all_states"%string l ->
  (exists n, In n l /\ ~ In (lower n) (pi_names ps)) ->
  lc_set_modules (lc_new (ObsList l)) ps = Err AssertionError.
Proof. exact limit_unknown_refused. Qed.
Print Assumptions limit_constraint_unknown_refused.

Theorem limit_constraint_known_accepted :
  forall o ps, NoDup (pi_names ps) -> (forall n, In n (pi_names ps) -> lower n = n) -> o <> ObsNone ->
  (forall n, In n (obs_list o) -> n <> "all_states"%string -> In (lower n) (pi_names ps)) ->
  exists c, lc_set_modules (lc_new o) ps = Ok c.
Proof. exact limit_known_accepted. Qed.
Print Assumptions limit_constraint_known_accepted.

Definition ps_ex : ps_info :=
  {| pi_names := ["omega"; "torque"; "i"]%string; pi_limits := [100; 10; 5]; pi_high := [1; 1; 1] |}.
Example limit_example : exists c, lc_set_modules (lc_new (ObsList ["i"%string])) ps_ex = Ok c /\
  lc_call c [3; 0; 1] = Ok 0 /\ lc_call c [0; 0; -2] = Ok 1.
Proof.
  destruct (limit_constraint_known_accepted (ObsList ["i"%string]) ps_ex) as [c Hc].
  - repeat constructor; simpl; intuition discriminate.
  - simpl; intros n [<-|[<-|[<-|[]]]]; reflexivity.
  - discriminate.
  - simpl. intros n [<-|[]] _. auto.
  - exists c. split; auto. unfold lc_set_modules in Hc. simpl in Hc. injection Hc as <-.
    unfold lc_call; simpl.
    destruct (reqP 1 0); [lra|]. destruct (reqP 0 0); [|lra]. simpl.
    rewrite Rabs_R1, (Rabs_left (-2)) by lra.
    destruct (rltP 1 1); [lra|]. destruct (rltP 1 (- -2)); [|lra]. auto.
Qed.

(** *** C11: squared constraint *)
(** Normalised state spaces: the observed entries are relative values. *)
Theorem squared_constraint_normalised :
  forall ps c state, NoDup (pi_names ps) ->
  sc_set_modules (sc_new (sc_states c)) ps = Ok c ->
  length (pi_limits ps) = length (pi_names ps) -> length (pi_high ps) = length (pi_names ps) ->
  length state = length (pi_names ps) ->
  (forall h, In h (pi_high ps) -> h = 1) ->
  exists vals, picks (pi_names ps) state (sc_states c) vals /\
    (1 < sum_of_squares vals -> sc_call c state = Ok 1) /\
    (sum_of_squares vals <= 1 -> sc_call c state = Ok 0).
Proof.
  intros ps c state Hnd H Hl Hh Hs H1.
  destruct (squared_eval ps c state H Hl Hh Hs) as (vals & lims & highs & Pv & Pl & Ph & E).
  exists vals. split; auto.
  assert ((if all_equal highs lims then map2 Rdiv vals lims else vals) = vals) as Ev.
  { destruct (all_equal highs lims) eqn:Ea; auto.
    apply all_equal_true in Ea; [|destruct Pl, Ph; congruence]. subst lims.
    apply map2_div_one; [destruct Pv, Ph; congruence|].
    intros x Hx. apply In_nth_error in Hx as [k Hk]. destruct Ph as [Lh Ph].
    destruct (nth_error (sc_states c) k) as [s|] eqn:Ek.
    - destruct (Ph k s x Ek Hk) as (i & _ & Hi). apply H1. eapply nth_error_In; eauto.
    - apply nth_error_None in Ek. assert (k < length highs)%nat by (apply nth_error_Some; congruence). lia. }
  rewrite E, Ev. split; intros; destruct (rltP 1 (sum_of_squares vals)); auto; lra.
Qed.
Print Assumptions squared_constraint_normalised.

(** Denormalised state spaces ([high = limits]): the entries are divided by
    their limits. *)
Theorem squared_constraint_denormalised :
  forall ps c state, NoDup (pi_names ps) ->
  sc_set_modules (sc_new (sc_states c)) ps = Ok c ->
  length (pi_limits ps) = length (pi_names ps) -> length state = length (pi_names ps) ->
  pi_high ps = pi_limits ps ->
  exists vals lims, picks (pi_names ps) state (sc_states c) vals /\
    picks (pi_names ps) (pi_limits ps) (sc_states c) lims /\
    (1 < sum_of_squares (map2 Rdiv vals lims) -> sc_call c state = Ok 1) /\
    (sum_of_squares (map2 Rdiv vals lims) <= 1 -> sc_call c state = Ok 0).
Proof.
  intros ps c state Hnd H Hl Hs Hh.
  destruct (squared_eval ps c state H Hl ltac:(congruence) Hs) as (vals & lims & highs & Pv & Pl & Ph & E).
  exists vals, lims. split; [auto|split; [auto|]].
  rewrite Hh in Ph. assert (highs = lims) by (eapply picks_unique; eauto). subst highs.
  assert (all_equal lims lims = true) as Ea by (apply all_equal_true; auto).
  rewrite E, Ea. split; intros; destruct (rltP 1 (sum_of_squares (map2 Rdiv vals lims))); auto; lra.
Qed.
Print Assumptions squared_constraint_denormalised.

(** Mixed spaces (a wrapper that announces its state with the physical limit as
    upper bound, next to normalised states) are treated as normalised: the
    physical value enters undivided. *)
Theorem squared_constraint_mixed_refuted :
  exists ps c state vals lims,
    NoDup (pi_names ps) /\ sc_set_modules (sc_new (sc_states c)) ps = Ok c /\
    state = [1 / 2; 1] /\ pi_high ps = [1; 2] /\ pi_limits ps = [100; 2] /\
    (* relative values 1/2 and 1/2: no violation *)
    vals = [1 / 2; 1] /\ lims = [1; 2] /\ sum_of_squares (map2 Rdiv vals lims) < 1 /\
    sc_call c state = Ok 1.
Proof.
  set (ps := {| pi_names := ["i"; "psi"]%string; pi_limits := [100; 2]; pi_high := [1; 2] |}).
  set (ss := ["i"; "psi"]%string).
  exists ps, {| sc_states := ss; sc_indices := [0; 1]%nat; sc_limits := [100; 2]; sc_normalized := true |},
    [1 / 2; 1], [1 / 2; 1], [1; 2].
  split; [repeat constructor; simpl; intuition discriminate|].
  split.
  { unfold sc_set_modules; simpl. destruct (reqP 1 100); [lra|]. reflexivity. }
  repeat split.
  - unfold sum_of_squares; simpl. lra.
  - unfold sc_call; simpl. destruct (rltP 1 (1 / 2 * (1 / 2) + (1 * 1 + 0))); auto; lra.
Qed.
Print Assumptions squared_constraint_mixed_refuted.

Example squared_example : exists c, sc_set_modules (sc_new (sc_states c)) ps_ex = Ok c /\
  sc_states c = ["i"; "torque"]%string.
Proof.
  exists {| sc_states := ["i"; "torque"]%string; sc_indices := [2; 1]%nat; sc_limits := [5; 10]; sc_normalized := true |}.
  split; auto. unfold sc_set_modules; simpl. destruct (reqP 1 5); [lra|]. reflexivity.
Qed.

(** *** C12: merge 'max' *)
Theorem monitor_max_no_constraints :
  forall m state, cm_new [] MergeMax = Ok m -> check_constraints m state = Ok 0.
Proof. intros m state H. exact (proj1 (check_max [] m state H) eq_refl). Qed.
Print Assumptions monitor_max_no_constraints.

Theorem monitor_max_is_maximum :
  forall cs m state d, cs <> [] -> cm_new cs MergeMax = Ok m -> check_constraints m state = Ok d ->
  (exists c, In c cs /\ c state = Ok d) /\ (forall c v, In c cs -> c state = Ok v -> v <= d).
Proof. intros cs m state d Hne H. exact (proj2 (check_max cs m state H) d Hne). Qed.
Print Assumptions monitor_max_is_maximum.

Theorem monitor_max_bounds_and_termination :
  forall cs m state d, cm_new cs MergeMax = Ok m -> check_constraints m state = Ok d ->
  (forall c v, In c cs -> c state = Ok v -> 0 <= v <= 1) ->
  0 <= d <= 1 /\ (d = 1 <-> exists c, In c cs /\ c state = Ok 1).
Proof.
  intros cs m state d H Hd Hb. destruct cs as [|c0 cs].
  - rewrite (monitor_max_no_constraints m state H) in Hd. injection Hd as <-.
    split; [lra|]. split; [lra|]. intros (c & [] & _).
  - destruct (monitor_max_is_maximum (c0 :: cs) m state d ltac:(discriminate) H Hd) as ((c & Hc & Hv) & Hmax).
    pose proof (Hb c d Hc Hv). split; auto. split.
    + intros ->. eauto.
    + intros (c' & Hc' & Hv'). specialize (Hmax c' 1 Hc' Hv'). lra.
Qed.
Print Assumptions monitor_max_bounds_and_termination.

Example monitor_max_example : exists m, cm_new [(fun _ => Ok 0); (fun _ => Ok (1/2))] MergeMax = Ok m /\
  check_constraints m [] = Ok (1/2).
Proof.
  eexists; split; [reflexivity|]. unfold check_constraints; simpl. destruct (rltP 0 (1/2)); auto; lra.
Qed.

(** *** C13: merge 'product' and user functions *)
Theorem monitor_product_refuted :
  forall cs m state, cs <> [] -> cm_new cs MergeProduct = Ok m ->
  (forall c, In c cs -> exists v, c state = Ok v) ->
  check_constraints m state = Err TypeError.
Proof. exact check_product. Qed.
Print Assumptions monitor_product_refuted.

(** The documented product is what product_merge computes when it gets the
    degrees as separate arguments. *)
Theorem product_merge_as_documented :
  forall vs, product_merge (map VNum vs) = Ok (1 - fold_right (fun v p => (1 - v) * p) 1 vs).
Proof.
  intros vs. unfold product_merge.
  assert (prod_one_minus (map VNum vs) = Ok (fold_right (fun v p => (1 - v) * p) 1 vs)) as ->.
  { induction vs as [|v vs IH]; simpl; auto. rewrite IH. reflexivity. }
  reflexivity.
Qed.
Print Assumptions product_merge_as_documented.

Theorem monitor_callable_gets_one_list_refuted :
  forall cs f m state vs, cs <> [] -> cm_new cs (MergeCallable f) = Ok m -> eval_all cs state = Ok vs ->
  check_constraints m state = f [VList vs].
Proof. exact check_callable. Qed.
Print Assumptions monitor_callable_gets_one_list_refuted.

Example monitor_product_example : exists m,
  cm_new [(fun _ => Ok (1/2))] MergeProduct = Ok m /\ check_constraints m [0] = Err TypeError.
Proof. eexists; split; reflexivity. Qed.

(** *** C75: plain functions given to the environment are ignored *)
Theorem env_drops_callables_refuted :
  forall l ps m state, (forall e, In e l -> exists c, e = ECCallable c) ->
  env_monitor l ps = Ok m -> check_constraints m state = Ok 0.
Proof.
  intros l ps m state Hl H.
  assert (ec_names l = [] /\ ec_constraints l = []) as [E1 E2].
  { clear H. induction l as [|e l IH]; simpl; auto.
    destruct (Hl e (or_introl eq_refl)) as [c ->]. simpl. apply IH. intros; apply Hl; simpl; auto. }
  unfold env_monitor in H. rewrite E1, E2 in H. simpl in H. injection H as <-. reflexivity.
Qed.
Print Assumptions env_drops_callables_refuted.

(** A full violation reported by a plain function therefore never terminates an
    episode, while the same function in a Constraint instance does. *)
Theorem env_callable_never_terminates_refuted :
  exists (c : constraint) ps state m1 m2, c state = Ok 1 /\
    env_monitor [ECCallable c] ps = Ok m1 /\ check_constraints m1 state = Ok 0 /\
    env_monitor [ECConstraint c] ps = Ok m2 /\ check_constraints m2 state = Ok 1.
Proof.
  exists (fun _ => Ok 1), ps_ex, [0; 0; 0]. eexists _, _. repeat split.
Qed.
Print Assumptions env_callable_never_terminates_refuted.

(** Names and Constraint instances do count. *)
Theorem env_monitor_counts_constraints :
  forall l ps m state d c v, env_monitor l ps = Ok m -> check_constraints m state = Ok d ->
  In (ECConstraint c) l -> c state = Ok v -> v <= d.
Proof.
  intros l ps m state d c v H Hd Hin Hv.
  assert (In c (ec_constraints l)) as Hc.
  { unfold ec_constraints. apply in_flat_map. exists (ECConstraint c). simpl; auto. }
  unfold env_monitor in H. destruct (ec_names l) as [|n ns].
  - eapply (monitor_max_is_maximum (ec_constraints l) m state d); eauto.
    destruct (ec_constraints l); [contradiction|discriminate].
  - destruct (lc_set_modules _ ps) as [lc|]; cbn [bind] in H; [|discriminate].
    eapply (monitor_max_is_maximum (ec_constraints l ++ [lc_call lc]) m state d); eauto.
    + destruct (ec_constraints l); discriminate.
    + apply in_or_app; auto.
Qed.
Print Assumptions env_monitor_counts_constraints.

(** *** C76: a limit constraint on all states cannot be reused *)
(** After the announcement to a first drive the names of that drive are stored:
    a second drive with other states is refused ... *)
Theorem limit_constraint_reuse_refuted :
  exists ps1 ps2 c1, lc_set_modules (lc_new ObsAllStr) ps1 = Ok c1 /\
    lc_set_modules c1 ps2 = Err AssertionError /\
    exists c2, lc_set_modules (lc_new ObsAllStr) ps2 = Ok c2.
Proof.
  exists ps_ex, {| pi_names := ["omega"]%string; pi_limits := [100]; pi_high := [1] |}.
  eexists. split; [reflexivity|]. split; [reflexivity|]. eexists; reflexivity.
Qed.
Print Assumptions limit_constraint_reuse_refuted.

(** ... or, if it has more states, the additional ones are not observed. *)
Theorem limit_constraint_reuse_unobserved_refuted :
  exists ps1 ps2 c1 c2 c state, lc_set_modules (lc_new ObsAllStr) ps1 = Ok c1 /\
    lc_set_modules c1 ps2 = Ok c2 /\ lc_call c2 state = Ok 0 /\
    lc_set_modules (lc_new ObsAllStr) ps2 = Ok c /\ lc_call c state = Ok 1.
Proof.
  exists {| pi_names := ["omega"]%string; pi_limits := [100]; pi_high := [1] |}, ps_ex.
  eexists _, _, _, [0; 0; 2]. split; [reflexivity|]. split; [reflexivity|].
  split; [|split; [reflexivity|]].
  - unfold lc_call; simpl. destruct (reqP 1 0); [lra|]. destruct (reqP 0 0); [|lra]. simpl.
    rewrite Rabs_R0. destruct (rltP 1 0); [lra|reflexivity].
  - unfold lc_call; simpl. destruct (reqP 1 0); [lra|]. simpl.
    rewrite Rabs_R0, (Rabs_pos_eq 2) by lra.
    destruct (rltP 1 0); [lra|]. destruct (rltP 1 2); [reflexivity|lra].
Qed.
Print Assumptions limit_constraint_reuse_unobserved_refuted.
