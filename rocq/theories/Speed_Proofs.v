(** The tuned speed controller as a scalar PI controller. *)
From Verif Require Import PyBaseFacts PyDictFacts Transform_Model Transform_Proofs Loads_Model Conv_Model Wrap_Model Ctl_Model Ctl_Model2 Ctl_Spec Ctl_Proofs Ctl_Proofs2 Ctl_Props Emf_Props Loop_Spec Loop_Proofs Loop_Proofs2 Speed_Spec Loop_Props.
Local Open Scope string_scope. Local Open Scope list_scope. Local Open Scope R_scope.

Section Speed.
Context {O : Type}.
(** A controller that differs from [c] in its integrator only. *)
Definition slike (c : sctl O) (z : R) (c' : sctl O) : Prop :=
  b_kind (sc_base c') = KPI /\ b_p (sc_base c') = b_p (sc_base c) /\ b_i (sc_base c') = b_i (sc_base c) /\ b_idx (sc_base c') = b_idx (sc_base c) /\ b_int (sc_base c') = [z] /\
  sc_aw c' = sc_aw c /\ cs_clip (sc_clip c') = cs_clip (sc_clip c).
Record ssingle (c : sctl O) (kp ki : R) (ji : nat) (tau lo hi : R) : Prop := {
  ss_p : b_p (sc_base c) = [kp]; ss_i : b_i (sc_base c) = [ki]; ss_idx : b_idx (sc_base c) = Some [ji]; ss_aw : aw_idx (sc_aw c) = [ji]; ss_tau : aw_tau (sc_aw c) = tau;
  ss_clip : cs_clip (sc_clip c) = CAbs [lo] [hi] }.
Lemma speed_step c kp ki ji tau lo hi c' z s r w : ssingle c kp ki ji tau lo hi -> slike c z c' -> item s ji = Ok w ->
  exists c2, speed_control c' s [r] = (c2, Ok [Rmin (Rmax (kp * (r - w) + ki * z) lo) hi]) /\
  (lo <= kp * (r - w) + ki * z <= hi -> slike c (z + tau * (r - w)) c2).
Proof.
  intros [S1 S2 S3 S4 S5 S6] (L1 & L2 & L3 & L4 & L5 & L6 & L7) Hi. set (y := kp * (r - w) + ki * z).
  assert (EB : base_call (sc_base c') s [r] = (sc_base c', Ok [y])).
  { unfold base_call. rewrite L1. f_equal. unfold pi_control, base_states, p_part, i_part. rewrite L4, S3, (select1 _ _ _ Hi). cbn [bind]. rewrite L2, L3, L5, S1, S2. reflexivity. }
  assert (EC : clip_call (sc_clip c') [y] = ({| cs_task := cs_task (sc_clip c'); cs_clip := cs_clip (sc_clip c'); cs_diff := [y - Rmin (Rmax y lo) hi] |}, Ok [Rmin (Rmax y lo) hi])).
  { unfold clip_call. rewrite L7, S6. cbn [clipped]. unfold np_clips, np_bin. cbn [length Nat.eqb map2 bind]. reflexivity. }
  eexists. split.
  - unfold speed_control. rewrite EB, EC. unfold has_integrator. rewrite L1. unfold windup_call. rewrite L6, S4, (select1 _ _ _ Hi). cbn [bind cs_diff]. unfold np_bin. cbn [length Nat.eqb map2 bind map]. rewrite L5. unfold np_iadd. cbn [length Nat.eqb map2]. reflexivity.
  - intros Hr. repeat split; cbn [sc_upd sc_base base_set_int b_kind b_p b_i b_idx b_int sc_aw sc_clip cs_clip]; try assumption. rewrite (Rmax_left y lo), (Rmin_left y hi) by lra. destruct (reqP (y - y) 0) as [_|N]; [|exfalso; apply N; ring]. rewrite S5. f_equal. ring.
Qed.
Lemma clip_inside y lo hi t : t = Rmin (Rmax y lo) hi -> lo < t < hi -> t = y /\ lo <= y <= hi.
Proof. intros -> H. unfold Rmin, Rmax in *. destruct (Rle_dec y lo) as [H1|H1]; destruct (Rle_dec _ hi) as [H2|H2]; lra. Qed.

Lemma min_same x n : py_min (repeat x (Datatypes.S n)) = Ok x.
Proof. cbn [repeat py_min]. f_equal. induction n as [|n IH]; [reflexivity|]. cbn [repeat fold_left]. rewrite Rmin_left by lra. exact IH. Qed.
Lemma t_n_value l tau a : 0 < tau -> 0 < a -> Forall (fun x => 0 < x) l -> l <> [] ->
  (do q <- np_bin Rdiv (map (fun x => x / (tau * a)) l) (i_gain_set (map (fun x => x / (tau * (a * a))) (map (fun x => x / (tau * a)) l))); py_min q) = Ok (tau * (a * a)).
Proof.
  intros Ht Ha Hl Hn. rewrite np_bin_eq by (unfold i_gain_set; rewrite !map_length; reflexivity). cbn [bind].
  replace (map2 Rdiv _ _) with (repeat (tau * (a * a)) (length l)).
  - destruct l as [|x l]; [contradiction|]. apply min_same.
  - clear Hn. induction Hl as [|x l Hx Hl IH]; [reflexivity|]. cbn [map i_gain_set map2 length repeat]. unfold i_gain_set in IH. rewrite <- IH. f_equal. rewrite Rmax_left; [field; repeat split; lra|]. apply Rlt_le. repeat apply Rdiv_lt_0_compat; try lra; repeat apply Rmult_lt_0_compat; lra.
Qed.
Lemma tuned_ssingle op e id margin a c m : tuned_speed op e id margin a c -> motor_type id = Ok m -> (forall l, read l_reader m e = Ok l -> Forall (fun x => 0 < x) l) -> 0 < ce_tau e -> 0 < a -> 0 < ce_j e ->
  let q := 1 / (a * a * a) in
  exists ji lo hi, ssingle c (ce_j e / ce_tau e * q) (ce_j e / ce_tau e * q * (q / ce_tau e)) ji (ce_tau e) lo hi /\ slike c 0 c /\ str_index "omega" (ce_names e) = Ok ji /\ (forall y, in_torque_range e y <-> lo < y < hi).
Proof.
  intros (o & cc0 & tc0 & c0 & c1 & dec & Hcc & Htc & Hsc & H & ->) Hm Hl Ht Ha Hj q.
  unfold sc_new in Hsc. apply bind_ok in Hsc. destruct Hsc as (kd & Ek & Hsc). injection Ek as <-. injection Hsc as <-.
  unfold sc_tune in H. cbn [sc_tc sc_aw sc_clip sc_base sc_ref] in H. apply bind_ok in H. destruct H as (tc & Etc & H). apply bind_ok in H. destruct H as (aw & Eaw & H). apply bind_ok in H. destruct H as (cl & Ecl & H). rewrite Hm in H. cbn [bind] in H. apply bind_ok in H. destruct H as (tn & Etn & H). apply bind_ok in H. destruct H as (b & Eb & H). injection H as <-.
  unfold windup_tune in Eaw. rewrite Hm in Eaw. cbn [bind windup_new aw_task indices] in Eaw. apply bind_ok in Eaw. destruct Eaw as (idx & Eidx & Eaw). injection Eaw as <-. apply bind_ok in Eidx. destruct Eidx as (ji & Eji & Eidx). injection Eidx as <-.
  unfold clip_tune in Ecl. rewrite Hm in Ecl. cbn [bind abs_new cs_task cs_clip clip_names indices] in Ecl. unfold clip_names in Ecl. cbn [abs_new cs_task bind indices] in Ecl. apply bind_ok in Ecl. destruct Ecl as (ti & Eti & Ecl). apply bind_ok in Ecl. destruct Ecl as (rg & Erg & Ecl). injection Ecl as <-. apply bind_ok in Eti. destruct Eti as (jt & Ejt & Eti). injection Eti as <-.
  (* the time constant of the current loop *)
  assert (Vtn : tn = ce_tau e * (a * a)).
  { unfold tc_tune in Etc. apply bind_ok in Etc. destruct Etc as (cc & Ecc & Etc). repeat (apply bind_ok in Etc; destruct Etc as (? & _ & Etc)). injection Etc as <-. cbn [tc_cc] in Etn.
    unfold tc_new in Htc. rewrite Hm in Htc. cbn [bind] in Htc. injection Htc as <-. cbn [tc_cc] in Ecc.
    unfold cc_new in Hcc. rewrite Hm in Hcc. cbn [bind] in Hcc. apply bind_ok in Hcc. destruct Hcc as (kc & Ekc & Hcc). injection Ekc as <-. injection Hcc as <-.
    unfold cc_tune in Ecc. apply bind_ok in Ecc. destruct Ecc as (at_ & _ & Ecc). rewrite Hm in Ecc. cbn [bind] in Ecc. apply bind_ok in Ecc. destruct Ecc as (ab & _ & Ecc). apply bind_ok in Ecc. destruct Ecc as (ef & _ & Ecc). apply bind_ok in Ecc. destruct Ecc as (bb & Ebb & Ecc). repeat (apply bind_ok in Ecc; destruct Ecc as (? & _ & Ecc)). injection Ecc as <-. cbn [cc_base] in Ebb.
    destruct (base_tuned _ _ _ _ _ _ _ (or_introl eq_refl) eq_refl Ebb Hm) as (l & cs & ix & El & _ & _ & _ & B2 & _ & B4 & B5 & _). specialize (Hl l El).
    unfold min_t_n, cc_t_n in Etn. cbn [cc_base] in Etn. rewrite B2 in Etn. rewrite B5, B4 in Etn.
    destruct l as [|l0 l]; [discriminate Etn|]. rewrite (t_n_value (l0 :: l) (ce_tau e) a Ht Ha Hl ltac:(discriminate)) in Etn. injection Etn as <-. reflexivity. }
  subst tn. cbn [base_tune_kw base_new b_kind pi_tune b_task] in Eb. unfold pi_tune in Eb. cbn [base_new b_kind b_task] in Eb. unfold pi_tune_speed in Eb. apply bind_ok in Eb. destruct Eb as (b1 & Eb1 & Eb). injection Eb as <-. unfold p_tune_speed in Eb1. rewrite Ejt, Eji in Eb1. cbn [bind] in Eb1. apply bind_ok in Eb1. destruct Eb1 as (rg2 & _ & Eb1). injection Eb1 as <-.
  assert (Q : 0 < q) by (unfold q; apply Rdiv_lt_0_compat; [lra|repeat apply Rmult_lt_0_compat; lra]).
  assert (K1 : ce_j e / (a * (ce_tau e * (a * a))) = ce_j e / ce_tau e * q) by (unfold q; field; split; lra). assert (Kp : 0 < ce_j e / ce_tau e * q) by (apply Rmult_lt_0_compat; [apply Rdiv_lt_0_compat|]; lra).
  destruct (ranges_inv _ [jt] _ _ 1%nat eq_refl Erg) as (li & lo & hi & E1 & E2 & E3 & L1 & L2 & C). destruct (C 0%nat (Nat.lt_0_succ _)) as [C1 C2].
  rewrite (select_comp _ _ _ 0%nat E1), (select_comp _ _ _ 0%nat E2) in C1 by (cbn; lia). rewrite (select_comp _ _ _ 0%nat E1), (select_comp _ _ _ 0%nat E3) in C2 by (cbn; lia). cbn [nth] in C1, C2.
  destruct rg as [glo ghi]. cbn [fst snd] in *. destruct glo as [|xlo [|? ?]]; [discriminate L1| |discriminate L1]. destruct ghi as [|xhi [|? ?]]; [discriminate L2| |discriminate L2]. change (comp 0 [xlo]) with xlo in C1. change (comp 0 [xhi]) with xhi in C2.
  exists ji, xlo, xhi. unfold sc_reset, base_reset. cbn [sc_base base_gains base_new b_kind has_integrator sc_clip sc_ref]. split; [|split; [|split; [exact Eji|]]].
  - split; cbn [sc_upd sc_base base_set_int base_gains b_p b_i b_idx sc_aw aw_idx aw_tau sc_clip cs_clip]; try reflexivity; [rewrite K1; reflexivity|]. rewrite K1. unfold i_gain_set. cbn [map]. f_equal. rewrite Rmax_left; [unfold q; field; split; lra|]. apply Rlt_le, Rdiv_lt_0_compat; [exact Kp|]. repeat apply Rmult_lt_0_compat; lra.
  - repeat split.
  - intros y. unfold in_torque_range. split.
    + intros H. specialize (H jt Ejt). lra.
    + intros H j Ej. rewrite Ejt in Ej. injection Ej as <-. lra.
Qed.
Lemma speed_linear n e r p c cs s w t kp ki ji lo hi D f : speed_until n e r p c cs s w t -> ssingle c kp ki ji (ce_tau e) lo hi -> slike c 0 c -> str_index "omega" (ce_names e) = Ok ji -> (forall y, in_torque_range e y <-> lo < y < hi) ->
  po_jtotal p = ce_j e -> 0 < ce_j e -> (forall k, (k < n)%nat -> static_load p (w k) = D + f * w k) ->
  forall k, (k < n)%nat -> w (Datatypes.S k) = w k + ce_tau e / ce_j e * (kp * (r - w k) + ki * zsum (ce_tau e) r w k - f * w k - D).
Proof.
  intros [C1 C2 C3 C4 C5] Sg Lk Hji Hrg Hj J0 W.
  assert (Hobs : forall k, (k < n)%nat -> item (s k) ji = Ok (w k)). { intros k Hk. destruct (C4 k Hk) as (j & E1 & E2). rewrite Hji in E1. injection E1 as <-. exact E2. }
  assert (St : forall k, (k < n)%nat -> slike c (zsum (ce_tau e) r w k) (cs k) -> t k = kp * (r - w k) + ki * zsum (ce_tau e) r w k /\ slike c (zsum (ce_tau e) r w (Datatypes.S k)) (cs (Datatypes.S k))).
  { intros k Hk L. destruct (speed_step _ _ _ _ _ _ _ _ _ _ r _ Sg L (Hobs k Hk)) as (c2 & E2 & L2). rewrite (C2 k Hk) in E2. injection E2 as E2 Et. pose proof (proj1 (Hrg (t k)) (C3 k Hk)) as Hr. destruct (clip_inside _ _ _ _ Et Hr) as [E3 Hr2]. split; [exact E3|]. rewrite E2. apply L2. exact Hr2. }
  assert (A : forall k, (k <= n)%nat -> slike c (zsum (ce_tau e) r w k) (cs k)). { induction k as [|k IH]; intros Hk; [rewrite C1; exact Lk|]. apply St; [exact Hk|]. apply IH. apply Nat.lt_le_incl, Hk. }
  intros k Hk. destruct (St k Hk (A k (Nat.lt_le_incl _ _ Hk))) as [Et _]. destruct (C5 k Hk) as (d & Ed & ->). unfold poly_ode in Ed. cbn [item nth_error bind] in Ed. assert (Ed' : d = (t k - static_load p (w k)) / po_jtotal p) by (cbn in Ed; congruence). rewrite Ed', Hj, (W k Hk), Et. field. lra.
Qed.
End Speed.
(** The error of a PI loop around an integrator with damping: gains in terms of [q]. *)
Lemma pi_recurrence n q tau J f D r w : 0 < tau -> 0 < J ->
  (forall k, (k < n)%nat -> w (Datatypes.S k) = w k + tau / J * (J / tau * q * (r - w k) + J / tau * q * (q / tau) * zsum tau r w k - f * w k - D)) ->
  forall k, (Datatypes.S k < n)%nat -> w (Datatypes.S (Datatypes.S k)) - r = (2 - tau * f / J - q) * (w (Datatypes.S k) - r) - (1 - tau * f / J - q + q * q) * (w k - r).
Proof.
  intros Ht HL H k Hk. pose proof (H k (Nat.lt_succ_l _ _ Hk)) as H1. pose proof (H (Datatypes.S k) Hk) as H2. cbn [zsum] in H2.
  set (x := w (Datatypes.S k)) in *. set (x2 := w (Datatypes.S (Datatypes.S k))) in *. set (x0 := w k) in *. set (z := zsum tau r w k) in *. clearbody x x2 x0 z.
  match type of H1 with x = x0 + ?b => set (B := b) in * end. match type of H2 with x2 = x + ?b => set (A := b) in * end.
  assert (E : A - B = tau / J * (J / tau * q * (x0 - x) + J / tau * q * (q / tau) * (tau * (r - x0)) - f * (x - x0))) by (unfold A, B; ring). clearbody A B.
  replace x2 with (x + (x - x0) + (A - B)) by lra. rewrite E. field. repeat split; lra.
Qed.
