(** Properties C16-C19: the weighted sum of errors. *)
From Verif Require Import PyDictFacts Utils_Model Utils_Spec Utils_Proofs Reward_Model Reward_Spec Reward_Proofs.

(** *** C16: without violation the reward stays in reward_range *)
Theorem reward_in_range :
  forall f e f' s b v N,
  wse_set_modules f e = Ok f' -> configured f' s b v -> admissible N s ->
  (wse_normed f = true -> rsum (si_w s) = 1) ->
  exists r, wse_reward f' (si_state s) (si_ref s) 0 = Ok r /\
    fst (wse_range f') <= r <= snd (wse_range f') /\
    (r = snd (wse_range f') <-> no_weighted_error s).
Proof.
  intros f e f' s b v N H Hc Ha Hn.
  destruct (reward_value f' s b v N 0 Ha Hc) as (er & Hb & Hz & E).
  eexists; split; [exact E|].
  apply set_modules_inv in H as (n' & w' & b' & v' & _ & E2 & _ & _ & Hw' & _ & _ & _ & Hb' & _ & Hr & _).
  destruct Hc as (C1 & C2 & C3 & C4 & C5). rewrite C4 in Hb'. injection Hb' as <-.
  rewrite C2 in Hw'. injection Hw' as Hw'. rewrite Hr.
  assert ((if wse_normed f then (-1 + b, b) else (- rsum w' + b, b)) = (- rsum (si_w s) + b, b)) as ->.
  { destruct (wse_normed f); [rewrite Hn by auto; reflexivity|congruence]. }
  simpl. split; [lra|]. rewrite <- Hz. split; intros; lra.
Qed.
Print Assumptions reward_in_range.

(** *** C17: violation *)
Theorem reward_convex_combination :
  forall f s b v N d, configured f s b v -> admissible N s ->
  exists r0 r, wse_reward f (si_state s) (si_ref s) 0 = Ok r0 /\
    wse_reward f (si_state s) (si_ref s) d = Ok r /\
    r = (1 - d) * r0 + d * v /\ (d = 1 -> r = v) /\
    (0 <= d <= 1 -> Rmin r0 v <= r <= Rmax r0 v).
Proof.
  intros f s b v N d Hc Ha.
  destruct (weighted_errors_spec N s Ha) as (e & E & _).
  do 2 eexists. split; [exact (reward_unfold f s b v 0 e Hc E)|].
  split; [exact (reward_unfold f s b v d e Hc E)|].
  split; [ring|]. split; [intros ->; ring|].
  intros [Hd0 Hd1].
  replace ((1 - 0) * (- e + b) + 0 * v) with (- e + b) by ring.
  set (r0 := - e + b).
  destruct (Rle_lt_dec r0 v) as [Hle|Hlt].
  - rewrite Rmin_left, Rmax_right by lra.
    assert (0 <= d * (v - r0)) by (apply Rmult_le_pos; lra).
    assert (0 <= (1 - d) * (v - r0)) by (apply Rmult_le_pos; lra). lra.
  - rewrite Rmin_right, Rmax_left by lra.
    assert (0 <= d * (r0 - v)) by (apply Rmult_le_pos; lra).
    assert (0 <= (1 - d) * (r0 - v)) by (apply Rmult_le_pos; lra). lra.
Qed.
Print Assumptions reward_convex_combination.

(** The default violation reward is at most the smallest regular reward, for
    every bias; it is the documented [range[0]/(1-gamma)] exactly when the
    smallest regular reward is not positive (else it is 0). *)
Theorem default_violation_reward_is_worst :
  forall f e f' v, 0 <= wse_gamma f < 1 -> wse_violation f = None ->
  wse_set_modules f e = Ok f' -> wse_violation f' = Some v ->
  v <= fst (wse_range f') /\ v <= 0 /\
  (fst (wse_range f') <= 0 -> v = fst (wse_range f') / (1 - wse_gamma f)) /\
  (0 < fst (wse_range f') -> v = 0).
Proof.
  intros f e f' v Hg Hv H Hv'.
  apply set_modules_inv in H as (n' & w' & b' & v' & _ & _ & _ & _ & _ & _ & _ & _ & _ & Hv1 & _ & Hd).
  rewrite Hv in Hd. rewrite Hv1 in Hv'. injection Hv' as <-.
  exact (default_violation_bound _ _ _ Hg Hd).
Qed.
Print Assumptions default_violation_reward_is_worst.

(** gamma = 1, documented as allowed, raises (normed weights). *)
Theorem gamma_one_refuted :
  forall f e n w, wse_gamma f = 1 -> wse_violation f = None -> wse_normed f = true ->
  set_state_array (wse_n f) (we_names e) = Ok n -> wse_weights f = Some w ->
  (exists arr, set_state_array w (we_names e) = Ok arr) ->
  wse_set_modules f e = Err ZeroDivisionError.
Proof.
  intros f e n w Hg Hv Hn En Hw [arr Ew]. unfold wse_set_modules.
  rewrite En. cbn [bind]. rewrite Hw, Ew. cbn [bind]. rewrite Hv, Hn, Hg.
  unfold default_violation. destruct (reqP (1 - 1) 0); [reflexivity|lra].
Qed.
Print Assumptions gamma_one_refuted.

(** One state [x] in [-1,1], weight 1, referenced. *)
Definition env1 : wse_env :=
  {| we_names := ["i"%string]; we_low := [-1]; we_high := [1]; we_referenced := [true] |}.
Definition wse1 : wse := wse_new (Some (InList [1])) false None (1/2) (InNum 1) (BiasNum 0).

Lemma wse1_modules : exists f', wse_set_modules wse1 env1 = Ok f' /\ wse_range f' = (- (1 + 0) + 0, 0) /\
  configured f' {| si_w := [1]; si_n := [1]; si_len := [1 - -1]; si_state := [0]; si_ref := [1] |} 0 (-2).
Proof.
  unfold wse_set_modules, wse1, wse_new; simpl.
  unfold default_violation. destruct (reqP (1 - 1 / 2) 0); [lra|]. cbn [bind].
  eexists; split; [reflexivity|]. split; [reflexivity|]. repeat split; simpl.
  unfold py_min0. destruct (rltP 0 ((- (1 + 0) + 0) / (1 - 1 / 2))).
  - exfalso. assert ((- (1 + 0) + 0) / (1 - 1 / 2) = -2) by lra. lra.
  - f_equal. lra.
Qed.
Definition sit1 : situation :=
  {| si_w := [1]; si_n := [1]; si_len := [1 - -1]; si_state := [0]; si_ref := [1] |}.
Example sit1_admissible : admissible 1 sit1.
Proof.
  unfold admissible; simpl. do 5 (split; [reflexivity|]).
  split; [intros x [<-|[]]; lra|]. split; [intros x [<-|[]]; lra|].
  intros [|i] l x r H1 H2 H3; simpl in *; [|destruct i; discriminate].
  injection H1 as <-. injection H2 as <-. injection H3 as <-.
  rewrite Rabs_left by lra. lra.
Qed.

(** With a violation the reward leaves the announced range. *)
Theorem reward_leaves_range_refuted :
  exists f e f' s r, wse_set_modules f e = Ok f' /\ admissible 1 s /\
    wse_reward f' (si_state s) (si_ref s) 1 = Ok r /\ r < fst (wse_range f').
Proof.
  destruct wse1_modules as (f' & H & Hr & Hc).
  destruct (reward_convex_combination f' sit1 0 (-2) 1 1 Hc sit1_admissible) as (r0 & r & _ & H1 & _ & H2 & _).
  exists wse1, env1, f', sit1, r. split; [auto|]. split; [exact sit1_admissible|]. split; [auto|].
  rewrite Hr, H2 by auto. simpl. lra.
Qed.
Print Assumptions reward_leaves_range_refuted.

(** *** C18: weights and bias *)
Theorem default_weights_uniform :
  forall e, NoDup (we_names e) -> (forall k, In k (we_names e) -> lower k = k) ->
  length (we_referenced e) = length (we_names e) ->
  exists w, set_state_array (InDict (default_weights e)) (we_names e) = Ok w /\
    length w = length (we_names e) /\
    forall i, (i < length (we_names e))%nat ->
      nth_error w i =
      Some (if Nat.eqb (length (filter (fun b => b) (we_referenced e))) 0
            then 1 / INR (length (we_names e))
            else if nth i (we_referenced e) false
                 then 1 / INR (length (filter (fun b => b) (we_referenced e))) else 0).
Proof. exact default_weights_spec. Qed.
Print Assumptions default_weights_uniform.

Theorem normed_weights_sum_to_one :
  forall f e f' w0 w, wse_set_modules f e = Ok f' -> wse_normed f = true ->
  set_state_array (match wse_weights f with None => InDict (default_weights e) | Some i => i end) (we_names e) = Ok w0 ->
  rsum w0 <> 0 -> wse_weights f' = Some (InArray w) -> rsum w = 1.
Proof.
  intros f e f' w0 w H Hn E Hs Hw.
  apply set_modules_inv in H as (n' & w' & b' & v' & _ & E2 & _ & _ & Hw' & _).
  rewrite E in E2. injection E2 as <-. rewrite Hn, Hw in Hw'. injection Hw' as ->.
  rewrite rsum_scale. field; auto.
Qed.
Print Assumptions normed_weights_sum_to_one.

Theorem positive_bias_range :
  forall f e f', wse_set_modules f e = Ok f' -> wse_bias f = BiasPositive ->
  fst (wse_range f') = 0.
Proof.
  intros f e f' H Hb.
  apply set_modules_inv in H as (n' & w' & b' & v' & _ & _ & Hb' & _ & _ & _ & _ & _ & _ & _ & Hr & _).
  rewrite Hb in Hb'. subst b'. rewrite Hr. destruct (wse_normed f); simpl; lra.
Qed.
Print Assumptions positive_bias_range.

Example default_weights_example :
  exists w, set_state_array (InDict (default_weights
    {| we_names := ["omega"; "i"]%string; we_low := [-1; -1]; we_high := [1; 1]; we_referenced := [false; true] |}))
    ["omega"; "i"]%string = Ok w /\ w = [0; 1 / INR 1].
Proof. eexists; split; reflexivity. Qed.

(** *** C19: reuse in a second environment *)
(** A drive with a different number of states is refused ... *)
Theorem reward_reuse_other_size_refuted :
  forall f e1 f1 e2, NoDup (we_names e1) -> wse_set_modules f e1 = Ok f1 ->
  length (we_names e1) <> length (we_names e2) ->
  wse_set_modules f1 e2 = Err AssertionError.
Proof.
  intros f e1 f1 e2 Hnd H Hne.
  apply set_modules_inv in H as (n' & w' & b' & v' & En & _ & _ & Hn & _).
  apply set_state_array_length in En; auto.
  unfold wse_set_modules. rewrite Hn. simpl. destruct (Nat.eqb_spec (length n') (length (we_names e2))); [lia|].
  reflexivity.
Qed.
Print Assumptions reward_reuse_other_size_refuted.

(** ... and with the same number of states, weights (by position), powers,
    bias and violation reward of the first drive are kept. *)
Theorem reward_reuse_keeps_first_refuted :
  forall f e1 f1 e2 f2, wse_set_modules f e1 = Ok f1 -> wse_set_modules f1 e2 = Ok f2 ->
  wse_n f2 = wse_n f1 /\ wse_bias f2 = wse_bias f1 /\ wse_violation f2 = wse_violation f1 /\
  (wse_normed f = false -> wse_weights f2 = wse_weights f1).
Proof.
  intros f e1 f1 e2 f2 H1 H2.
  apply set_modules_inv in H1 as (n1 & w1 & b1 & v1 & _ & _ & _ & A1 & A2 & _ & A3 & _ & A4 & A5 & _).
  apply set_modules_inv in H2 as (n2 & w2 & b2 & v2 & B0 & B1 & B2 & B3 & B4 & _ & _ & _ & B5 & B6 & _ & B7).
  rewrite A1 in B0. rewrite A2 in B1. rewrite A4 in B2. rewrite A5 in B7.
  simpl in B0. destruct (Nat.eqb _ _); cbn [bind py_assert] in B0; [|discriminate]. injection B0 as <-.
  split; [congruence|]. split; [congruence|]. split; [congruence|].
  intros Hn. rewrite Hn in *. rewrite B4, A2, A3.
  simpl in B1. destruct (Nat.eqb _ _); cbn [bind py_assert] in B1; [|discriminate]. injection B1 as <-.
  reflexivity.
Qed.
Print Assumptions reward_reuse_keeps_first_refuted.

(** Concretely: default weights on the referenced state 0 of the first drive
    stay there although the second drive references state 1. *)
Theorem reward_reuse_wrong_state_refuted :
  exists e1 e2 f f1 f2 w,
    wse_set_modules f e1 = Ok f1 /\ wse_set_modules f1 e2 = Ok f2 /\
    we_referenced e2 = [false; true] /\ wse_weights f2 = Some (InArray w) /\ w = [1 / INR 1; 0].
Proof.
  set (e1 := {| we_names := ["a"; "b"]%string; we_low := [-1; -1]; we_high := [1; 1]; we_referenced := [true; false] |}).
  set (e2 := {| we_names := ["a"; "b"]%string; we_low := [-1; -1]; we_high := [1; 1]; we_referenced := [false; true] |}).
  exists e1, e2, (wse_new None false (Some (-1)) 0 (InNum 1) (BiasNum 0)).
  do 3 eexists. repeat split; reflexivity.
Qed.
Print Assumptions reward_reuse_wrong_state_refuted.
