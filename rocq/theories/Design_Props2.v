(** C173-C175: the automatic design of controllers for three-phase motors,
    examples/classic_controllers/classic_controllers.py. *)
From Coq Require Import Lia Lra ZArith.
From Verif Require Import Ops_Model Ops_Proofs Ops_Props Ops_Props2.
From Verif Require Import PyBase PyBaseFacts PyDict PyDictFacts Transform_Model PhysSys_Model Preset_Model Preset_Props Full_Spec
  Ex_Model Ex_Model2 Ex_Spec Ex_Proofs Ex_Proofs2 Ex_Proofs3 Ex_Proofs5 Ex_Model3 Ex_Spec2 Ex_Proofs6 Ex_Proofs7 Design_Model Design_Spec Design_Proofs Design_Proofs2
  Design_Model2 Design_Spec2 Design_Proofs4 Design_Proofs5 Design_Proofs6.
Local Open Scope string_scope.
Local Open Scope list_scope.
Local Open Scope R_scope.

(** A description of an environment with all limits and parameters one, to show that the
    theorems apply to every three-phase environment *)
Definition sample3 (p : preset) (acc : access) (complex : bool) (tables grid : res unit) : tp :=
  let ones := map (fun _ => 1) (all_names p) in
  {| tp_env := {| en_names := all_names p; en_low := map (fun _ => -1) (all_names p); en_high := ones; en_limits := ones; en_nominal := ones;
                  en_cur := []; en_volt := []; en_space := match ac_space (pr_conv p) with Some s => s | None => SDisc 1 end;
                  en_mp := [("p", 1); ("l_d", 1); ("l_q", 1); ("l_m", 1); ("l_sigs", 1); ("l_sigr", 1); ("r_s", 1); ("r_r", 1)];
                  en_extex := false; en_tau := 1 / 1000 |};
     tp_sys := pr_sys p; tp_access := acc; tp_j := 1; tp_refs := ref_names p; tp_complex := complex; tp_tables := tables; tp_grid := grid |}.
Example sample3_fits : forall p acc c t g, In p presets -> is_dc (pr_motor p) = false -> ac_of p (sample3 p acc c t g).
Proof.
  intros p acc c t g Ip D. constructor; cbn [sample3 tp_env tp_sys tp_refs en_names en_low en_high en_limits en_nominal en_space en_mp en_tau]; rewrite ?map_length; try reflexivity.
  - induction (all_names p); cbn; constructor; [lra|assumption].
  - destruct presets_fit_their_ids as (H & _). destruct (H p Ip) as (f1 & t1 & m1 & _ & F1). rewrite (fit_motor _ _ _ _ F1) in D. rewrite (fit_conv _ _ _ _ F1). destruct f1, m1; try discriminate D; reflexivity.
  - unfold ac_parameters, positive. destruct (pr_motor p); repeat split; cbn; exists 1; split; try reflexivity; lra.
  - lra.
Qed.
Lemma motor_of f t m p : In p presets -> pr_id p = env_id f t m -> pr_motor p = m.
Proof.
  intros Ip Id. destruct presets_fit_their_ids as (G & _). destruct (G p Ip) as (f1 & t1 & m1 & I1 & F1). rewrite Id in I1. pose proof (parse_env_id f t m) as P1. rewrite I1, parse_env_id in P1. injection P1 as -> -> ->. apply (fit_motor _ _ _ _ F1).
Qed.

(** ** C173 [Controller.make(env)] without further arguments, for each of the 30 three-phase
    environments with any limits, parameters, kind of environment object and numpy version:
    it raises the exception in [ac_verdict], or makes a controller that never returns an action
    of the action space, or makes one whose actions are always in the action space. *)
Theorem automatic_ac_design_verdict : forall f t m p d a, In p presets -> pr_id p = env_id f t m -> is_dc m = false -> ac_of p d -> 0 < a ->
  match ac_verdict f t m d with
  | Works => exists c, make3 d a = Ok c /\ usable3 d c
  | Useless => exists c, make3 d a = Ok c /\ useless d c
  | Raise x => make3 d a = Err x
  end.
Proof. intros f t m p d a Ip Id D O _. exact (make3_outcome t f m d a D (shape3_of _ _ _ _ _ Ip Id D O)). Qed.
Print Assumptions automatic_ac_design_verdict.
(** A usable controller results in at most nine of the 30 environments: torque and speed
    control of the PMSM and the SynRM with continuous actions and torque control with finite
    ones, and everything of the SCIM with continuous actions. *)
Theorem ac_design_usable_only_if : forall f t m p d a c, In p presets -> pr_id p = env_id f t m -> is_dc m = false -> ac_of p d -> 0 < a -> make3 d a = Ok c ->
  (tp_complex d = true /\ tp_access d <> Opaque) /\
  ((m = Scim /\ f = false) \/ ((m = Pmsm \/ m = Synrm) /\ (t = TorqueControl \/ (t = SpeedControl /\ f = false)) /\ tp_tables d = Ok tt /\ tp_grid d = Ok tt) \/
   (m = Dfim \/ (m = Eesm /\ f = false /\ t <> CurrentControl)) /\ useless d c).
Proof.
  intros f t m p d a c Ip Id D O P H. pose proof (automatic_ac_design_verdict f t m p d a Ip Id D O P) as V.
  assert (U : ac_verdict f t m d = Useless -> useless d c) by (intros E; rewrite E in V; destruct V as (c' & E1 & E2); assert (c' = c) by congruence; subst; exact E2). assert (X : forall x, ac_verdict f t m d <> Raise x) by (intros x E; rewrite E in V; congruence). clear V.
  unfold ac_verdict, converted in *. destruct (tp_access d); destruct (tp_complex d); try (exfalso; apply (X AttributeError); reflexivity);
    destruct (tp_tables d) as [[]|x1], (tp_grid d) as [[]|x2]; destruct m; try discriminate D; destruct t, f; cbn in *; try (exfalso; eapply X; reflexivity);
    (split; [split; [reflexivity|discriminate]|]); first [left; split; reflexivity|right; left; repeat split; auto; fail|right; right; split; [auto; right; repeat split; auto; discriminate|apply U; reflexivity]].
Qed.
Print Assumptions ac_design_usable_only_if.
(** numpy removed [np.complex] in version 1.24.  Since then no controller can be made for any
    three-phase environment. *)
Theorem no_ac_design_without_np_complex : forall f t m p d a, In p presets -> pr_id p = env_id f t m -> is_dc m = false -> ac_of p d -> 0 < a -> tp_complex d = false -> exists x, make3 d a = Err x.
Proof.
  intros f t m p d a Ip Id D O P Cx. destruct (make3 d a) as [c|x] eqn:E; [|eauto]. destruct (ac_design_usable_only_if f t m p d a c Ip Id D O P E) as [[C _] _]. congruence.
Qed.
Print Assumptions no_ac_design_without_np_complex.
(** Expected: a controller for every environment.  It is false even for bare environments with
    an old numpy and a torque conversion that does not raise. *)
Theorem automatic_ac_design_works_refuted :
  ~ (forall f t m p d, In p presets -> pr_id p = env_id f t m -> is_dc m = false -> ac_of p d -> tp_access d = Bare -> tp_complex d = true -> tp_tables d = Ok tt -> tp_grid d = Ok tt ->
     exists c, make3 d 4 = Ok c).
Proof.
  intros H. destruct presets_fit_their_ids as (_ & G2 & _). destruct (G2 false CurrentControl Pmsm) as (p & Ip & Id). pose proof (motor_of _ _ _ _ Ip Id) as M.
  pose proof (sample3_fits p Bare true (Ok tt) (Ok tt) Ip ltac:(rewrite M; reflexivity)) as O. destruct (H false CurrentControl Pmsm p _ Ip Id eq_refl O eq_refl eq_refl eq_refl eq_refl) as (c & E).
  pose proof (automatic_ac_design_verdict false CurrentControl Pmsm p _ 4 Ip Id eq_refl O ltac:(lra)) as V. cbn [ac_verdict sample3 tp_access] in V. congruence.
Qed.
Print Assumptions automatic_ac_design_works_refuted.
(** Non-vacuity: with an old numpy, a controller for the speed of the SCIM works, and one for
    the DFIM is made although it never returns an action. *)
Example automatic_ac_design_example : exists p q c e, In p presets /\ pr_id p = env_id false SpeedControl Scim /\ In q presets /\ pr_id q = env_id true CurrentControl Dfim /\
  make3 (sample3 p Bare true (Ok tt) (Ok tt)) 4 = Ok c /\ usable3 (sample3 p Bare true (Ok tt) (Ok tt)) c /\
  make3 (sample3 q Bare true (Ok tt) (Ok tt)) 4 = Ok e /\ useless (sample3 q Bare true (Ok tt) (Ok tt)) e /\
  make3 (sample3 p Bare false (Ok tt) (Ok tt)) 4 = Err AttributeError.
Proof.
  destruct presets_fit_their_ids as (_ & G2 & _). destruct (G2 false SpeedControl Scim) as (p & Ip & Id). destruct (G2 true CurrentControl Dfim) as (q & Iq & Jd). pose proof (motor_of _ _ _ _ Ip Id) as M. pose proof (motor_of _ _ _ _ Iq Jd) as N.
  assert (O : forall c, ac_of p (sample3 p Bare c (Ok tt) (Ok tt))) by (intros c; apply sample3_fits; [exact Ip|rewrite M; reflexivity]). pose proof (sample3_fits q Bare true (Ok tt) (Ok tt) Iq ltac:(rewrite N; reflexivity)) as O2.
  destruct (automatic_ac_design_verdict false SpeedControl Scim p _ 4 Ip Id eq_refl (O true) ltac:(lra)) as (c & C1 & C2). destruct (automatic_ac_design_verdict true CurrentControl Dfim q _ 4 Iq Jd eq_refl O2 ltac:(lra)) as (e & E1 & E2).
  exists p, q, c, e. repeat (split; [assumption|]). exact (automatic_ac_design_verdict false SpeedControl Scim p _ 4 Ip Id eq_refl (O false) ltac:(lra)).
Qed.

(** ** C174 The gains for synchronous motors: the symmetric optimum with the delay 1.5 tau.  The
    resetting time is the delay times [a] squared for the current controllers, and [a] times
    that for the speed controller, whose delay is taken for the resetting time of the d current
    controller. *)
Theorem sync_design_gains : forall t m p d a ld lq lw lid liq lud luq lt n1 n2 n3 n4 n5 n6,
  t <> CurrentControl -> m = Pmsm \/ m = Synrm \/ m = Eesm -> In p presets -> pr_id p = env_id false t m -> ac_of p d -> 0 < a ->
  tp_access d <> Opaque -> tp_complex d = true -> tp_tables d = Ok tt -> tp_grid d = Ok tt ->
  dict_item "l_d" (en_mp (tp_env d)) = Ok ld -> dict_item "l_q" (en_mp (tp_env d)) = Ok lq ->
  quantity (tp_env d) "omega" lw n1 -> quantity (tp_env d) "i_sd" lid n2 -> quantity (tp_env d) "i_sq" liq n3 -> quantity (tp_env d) "u_sd" lud n4 -> quantity (tp_env d) "u_sq" luq n5 -> quantity (tp_env d) "torque" lt n6 ->
  let delay := 3 / 2 * en_tau (tp_env d) in let reset_time := delay * (a * a) in
  exists c s bd bq, make3 d a = Ok (MCfoc c s) /\ fs_ctl s = CDq (BPi bd, BPi bq) /\
    pi_p bd * (lud / lid) = ld / (delay * a) /\ pi_i bd * reset_time = pi_p bd /\
    pi_p bq * (luq / liq) = lq / (delay * a) /\ pi_i bq * reset_time = pi_p bq /\
    match t with
    | SpeedControl => exists bw, fs_over s = [BPi bw] /\ pi_p bw * (lt / lw) = tp_j d / (reset_time * (a * a)) /\ pi_i bw * (reset_time * a) = pi_p bw
    | _ => fs_over s = []
    end.
Proof.
  intros t m p d a ld lq lw lid liq lud luq lt n1 n2 n3 n4 n5 n6 T M Ip Id O P Ac Cx Tb Gr Ld Lq Q1 Q2 Q3 Q4 Q5 Q6. cbv zeta.
  assert (D : is_syn m = true) by (destruct M as [->|[->| ->]]; reflexivity). pose proof (shape3_of _ _ _ _ _ Ip Id (syn_ac _ D) O) as S. assert (A : opaque (tp_access d) = false) by (destruct (tp_access d); try reflexivity; contradiction).
  pose proof (design3 _ _ _ _ (syn_ac m D) S) as Ds. pose proof (lims3 _ _ _ _ (syn_ac m D) S) as Lm. rewrite A in Ds, Lm. rewrite andb_false_r in Ds. destruct Lm as (L & Lm & L1 & L2 & L3 & L4 & L5 & L6).
  destruct (s3_bounds _ _ _ _ S) as (B1 & B2 & B).
  assert (K : forall nm l w v, quantity (tp_env d) nm l w -> state_lim (tp_env d) nm = Ok v -> v = l /\ 0 < l) by (intros nm l w v (j & J1 & J2 & J3) E; unfold state_lim in E; rewrite J1 in E; cbn [bind] in E; pose proof (B j w l J3 J2); split; [congruence|lra]).
  destruct (K _ _ _ _ Q1 L1) as [E1 P1]. destruct (K _ _ _ _ Q2 L2) as [E2 P2]. destruct (K _ _ _ _ Q3 L3) as [E3 P3]. destruct (K _ _ _ _ Q4 L4) as [E4 P4]. destruct (K _ _ _ _ Q5 L5) as [E5 P5]. destruct (K _ _ _ _ Q6 L6) as [E6 P6].
  destruct (gain_box t m d L a D T S) as (ld' & lq' & F1 & F2 & G). assert (ld' = ld) by congruence. assert (lq' = lq) by congruence. subst ld' lq'. cbv zeta in G. rewrite E1, E2, E3, E4, E5, E6 in G.
  pose proof (ao_tau _ _ O) as Pt. assert (Pld : 0 < ld). { pose proof (s3_mp _ _ _ _ S) as Mp. unfold ac_parameters in Mp. assert (X : positive "l_d" (en_mp (tp_env d))) by (destruct M as [->|[->| ->]]; tauto). destruct (pos_item _ _ X) as (v & X1 & X2). assert (v = ld) by congruence. subst v. exact X2. }
  match type of G with _ = Ok ([pi_gains ?a0 ?a1 pis; pi_gains ?b0 ?b1 pis] :: overlaid _ (pi_gains ?g0 ?g1 pis)) => pose proof (cfoc_new_box t m d a0 a1 b0 b1 g0 g1 D T A S) as C end. cbv zeta in C.
  unfold conversion in C. rewrite Tb, Cx, Gr in C. cbn [bind] in C. destruct C as (c & s & C1 & _ & _ & C2 & C3). exists c, s. eexists. eexists. split.
  - unfold make3. rewrite Ds, Lm. cbn [bind fst snd]. assert (N : name3 t m = "cascaded_foc_controller") by (destruct t, m; try discriminate D; try contradiction; reflexivity). rewrite N. cbn [String.eqb Ascii.eqb Bool.eqb]. rewrite G. cbn [bind]. rewrite C1. reflexivity.
  - split; [exact C2|]. cbn [pi_p pi_i]. split; [field; repeat split; lra|]. split; [field; repeat split; lra|]. split; [field; repeat split; lra|]. split; [field; repeat split; lra|].
    destruct t; [|exact C3|contradiction]. eexists. split; [exact C3|]. cbn [pi_p pi_i]. split; field; repeat split; lra.
Qed.
Print Assumptions sync_design_gains.
(** Non-vacuity: with all limits and parameters one, a sampling time of 1 ms and a = 4 the
    current controllers have the proportional gain 1000/6. *)
Example sync_design_gains_example : exists p, In p presets /\ pr_id p = env_id false SpeedControl Pmsm /\
  exists c s bd bq, make3 (sample3 p Forwarding true (Ok tt) (Ok tt)) 4 = Ok (MCfoc c s) /\ fs_ctl s = CDq (BPi bd, BPi bq) /\ pi_p bd = 1000 / 6 /\ exists bw, fs_over s = [BPi bw] /\ pi_p bw * (384 / 1000) = 1.
Proof.
  destruct presets_fit_their_ids as (_ & G2 & _). destruct (G2 false SpeedControl Pmsm) as (p & Ip & Id). pose proof (motor_of _ _ _ _ Ip Id) as M. exists p. split; [exact Ip|]. split; [exact Id|].
  assert (Dc : is_dc (pr_motor p) = false) by (rewrite M; reflexivity). pose proof (sample3_fits p Forwarding true (Ok tt) (Ok tt) Ip Dc) as O. pose proof (no_wrappers p Ip Dc) as An. rewrite M in An.
  assert (Q : forall nm, In nm ["omega"; "i_sd"; "i_sq"; "u_sd"; "u_sq"; "torque"] -> quantity (tp_env (sample3 p Forwarding true (Ok tt) (Ok tt))) nm 1 1) by (intros nm Hn; unfold quantity; cbn [sample3 tp_env en_names en_limits en_nominal]; rewrite An; repeat (destruct Hn as [<-|Hn]; [eexists; repeat split; reflexivity|]); destruct Hn).
  destruct (sync_design_gains SpeedControl Pmsm p _ 4 1 1 1 1 1 1 1 1 1 1 1 1 1 1 ltac:(discriminate) (or_introl eq_refl) Ip Id O ltac:(lra) ltac:(discriminate) eq_refl eq_refl eq_refl eq_refl eq_refl (Q "omega" ltac:(cbn; tauto)) (Q "i_sd" ltac:(cbn; tauto)) (Q "i_sq" ltac:(cbn; tauto)) (Q "u_sd" ltac:(cbn; tauto)) (Q "u_sq" ltac:(cbn; tauto)) (Q "torque" ltac:(cbn; tauto)))
    as (c & s & bd & bq & H1 & H2 & H3 & H4 & _ & _ & bw & W1 & W2 & _). exists c, s, bd, bq. split; [exact H1|]. split; [exact H2|]. cbn in H3, W2. split; [lra|]. exists bw. split; [exact W1|]. lra.
Qed.

(** ** C175 The gains for induction motors.  Both current controllers get the same gains; they
    depend on the motor parameters only (not on the sampling time, the limits and [a]).  Their
    resetting time is the stator time constant, and the speed controller takes that for its
    delay. *)
Theorem im_design_gains : forall t m p d a lm lss lsr rs rr lw lt n1 n2,
  m = Scim \/ m = Dfim -> In p presets -> pr_id p = env_id false t m -> ac_of p d -> 0 < a -> tp_access d <> Opaque -> tp_complex d = true ->
  dict_item "l_m" (en_mp (tp_env d)) = Ok lm -> dict_item "l_sigs" (en_mp (tp_env d)) = Ok lss -> dict_item "l_sigr" (en_mp (tp_env d)) = Ok lsr -> dict_item "r_s" (en_mp (tp_env d)) = Ok rs -> dict_item "r_r" (en_mp (tp_env d)) = Ok rr ->
  quantity (tp_env d) "omega" lw n1 -> quantity (tp_env d) "torque" lt n2 ->
  let ls := lm + lss in let lr := lm + lsr in let time := (1 - lm * lm / (ls * lr)) * ls / (rs + rr * (lm / lr * (lm / lr))) in
  exists b, pi_p b * time = lr / rr /\ pi_i b * time = pi_p b /\ 0 < time /\
    match t with
    | CurrentControl => exists rd rq c, make3 d a = Ok (MImf rd rq c (Some (BPi b, BPi b)))
    | _ => exists c s, make3 d a = Ok (MImc c s) /\ cs_d s = BPi b /\ cs_q s = BPi b /\
        match t with
        | SpeedControl => exists bw, cs_over s = [BPi bw] /\ pi_p bw * (lt / lw) = tp_j d / (time * (a * a)) /\ pi_i bw * (time * a) = pi_p bw
        | _ => cs_over s = []
        end
    end.
Proof.
  intros t m p d a lm lss lsr rs rr lw lt n1 n2 M Ip Id O P Ac Cx H2 H3 H4 H5 H6 Q1 Q6. cbv zeta.
  assert (D : is_im m = true) by (destruct M as [->| ->]; reflexivity). pose proof (shape3_of _ _ _ _ _ Ip Id (im_ac _ D) O) as S. assert (A : opaque (tp_access d) = false) by (destruct (tp_access d); try reflexivity; contradiction).
  pose proof (design3 _ _ _ _ (im_ac m D) S) as Ds. pose proof (lims3 _ _ _ _ (im_ac m D) S) as Lm. rewrite A in Ds, Lm. rewrite andb_false_r in Ds. destruct Lm as (L & Lm & L1 & _ & _ & _ & _ & L6).
  destruct (s3_bounds _ _ _ _ S) as (B1 & B2 & B).
  assert (K : forall nm l w v, quantity (tp_env d) nm l w -> state_lim (tp_env d) nm = Ok v -> v = l /\ 0 < l) by (intros nm l w v (j & J1 & J2 & J3) E; unfold state_lim in E; rewrite J1 in E; cbn [bind] in E; pose proof (B j w l J3 J2); split; [congruence|lra]).
  destruct (K _ _ _ _ Q1 L1) as [E1 P1]. destruct (K _ _ _ _ Q6 L6) as [E6 P6].
  destruct (im_mp _ _ _ _ D S) as (pp & lm' & lss' & lsr' & rs' & rr' & Pr). destruct (ip_pos _ _ _ _ _ _ _ Pr) as (Z1 & Z2 & Z3 & Z4 & Z5 & Z6).
  assert (lm' = lm) by (pose proof (ip_lm _ _ _ _ _ _ _ Pr); congruence). assert (lss' = lss) by (pose proof (ip_lss _ _ _ _ _ _ _ Pr); congruence). assert (lsr' = lsr) by (pose proof (ip_lsr _ _ _ _ _ _ _ Pr); congruence). assert (rs' = rs) by (pose proof (ip_rs _ _ _ _ _ _ _ Pr); congruence). assert (rr' = rr) by (pose proof (ip_rr _ _ _ _ _ _ _ Pr); congruence). subst lm' lss' lsr' rs' rr'.
  assert (T : tau_sig lm lss lsr rs rr = (1 - lm * lm / ((lm + lss) * (lm + lsr))) * (lm + lss) / (rs + rr * (lm / (lm + lsr) * (lm / (lm + lsr))))).
  { unfold tau_sig. cbv zeta. assert (X : 0 < rs * ((lm + lsr) * (lm + lsr)) + rr * (lm * lm)) by (apply Rplus_lt_0_compat; apply Rmult_lt_0_compat; try lra; apply Rmult_lt_0_compat; lra). field. repeat split; try lra; nra. }
  rewrite <- T. assert (Tp : 0 < tau_sig lm lss lsr rs rr).
  { unfold tau_sig. cbv zeta. apply Rdiv_lt_0_compat; [apply Rmult_lt_0_compat; [apply Rdiv_lt_0_compat; [nra|apply Rmult_lt_0_compat; lra]|lra]|]. assert (0 <= rr * (lm * lm) / ((lm + lsr) * (lm + lsr))); [|lra]. apply Rmult_le_pos; [apply Rmult_le_pos; [lra|apply Rmult_le_pos; lra]|left; apply Rinv_0_lt_compat, Rmult_lt_0_compat; lra]. }
  set (ts := tau_sig lm lss lsr rs rr) in *. set (g := im_gain lm lss lsr rs rr). assert (Eg : g = (lm + lsr) / rr / ts) by reflexivity. assert (Gp : 0 < g) by (rewrite Eg; apply Rdiv_lt_0_compat; [apply Rdiv_lt_0_compat; lra|exact Tp]). clearbody g.
  exists {| pi_p := g; pi_i := g / ts; pi_tau := en_tau (tp_env d); pi_int := 0 |}. cbn [pi_p pi_i]. split; [rewrite Eg; field; lra|]. split; [field; lra|]. split; [exact Tp|].
  assert (St : stages3 t false m = [pis; pis] :: overlaid t pis) by (rewrite (stages_im t m false D); reflexivity).
  assert (TC : t = CurrentControl \/ t <> CurrentControl) by (destruct t; (now left) || (right; discriminate)). destruct TC as [-> | TC].
  - destruct (imf_new_ok false m d g (g / ts) pp lm lss lsr rs rr (overlaid CurrentControl pis) D S A Pr Cx ltac:(discriminate)) as (c & E & _). cbv zeta in E. exists 0%nat, 1%nat, c.
    unfold make3. rewrite Ds, Lm. cbn [bind fst snd]. assert (Nm : name3 CurrentControl m = "foc_rotor_flux_observer") by (destruct m; try discriminate D; reflexivity). rewrite Nm, St. cbn [String.eqb Ascii.eqb Bool.eqb]. destruct (im_current_ok _ _ _ _ _ _ _ (overlaid CurrentControl pis) Pr) as [Ic _]. rewrite Ic. cbn [bind snd]. fold ts. unfold im_gain. fold ts. rewrite <- Eg. rewrite E. reflexivity.
  - assert (G : exists w wi, gain_imc d L a ([pis; pis] :: overlaid t pis) = Ok ([pi_gains g (g / ts) pis; pi_gains g (g / ts) pis] :: overlaid t (pi_gains w wi pis)) /\ w = tp_j d / (a * a * (g / (g / ts))) / lt * lw /\ wi = w / (a * (g / (g / ts)))).
    { pose proof (gain_imc_ok t false m d L a pp lm lss lsr rs rr D TC S Pr) as X. cbv zeta in X. unfold im_gain in X. fold ts in X. rewrite <- Eg in X. rewrite E1, E6 in X. do 2 eexists. split; [exact X|]. split; reflexivity. }
    destruct G as (w & wi & G & Ew & Ei). destruct (imc_make_ok t m d g (g / ts) w wi pp lm lss lsr rs rr D TC S A Pr Cx) as (c & s & mt & ms & E & _ & _ & _ & _ & _ & _ & C1 & C2 & C3). cbv zeta in C1, C2, C3.
    assert (Mk : make3 d a = Ok (MImc c s)).
    { unfold make3. rewrite Ds, Lm. cbn [bind fst snd]. assert (Nm : name3 t m = "cascaded_foc_rotor_flux_observer") by (destruct m, t; try discriminate D; try contradiction; reflexivity). rewrite Nm, St. cbn [String.eqb Ascii.eqb Bool.eqb]. rewrite G. cbn [bind]. assert (Bx : is_box (en_space (tp_env d)) = true) by (rewrite (s3_space _ _ _ _ S); destruct m; reflexivity). rewrite Bx, E. reflexivity. }
    destruct t; [..|contradiction]; exists c, s; (split; [exact Mk|]); (split; [exact C1|]); (split; [exact C2|]).
    + eexists. split; [exact C3|]. cbn [pi_p pi_i]. rewrite Ei, Ew. split; field; repeat split; lra.
    + exact C3.
Qed.
Print Assumptions im_design_gains.
(** Non-vacuity: the torque control of the DFIM with all parameters one has the resetting time
    (1 - 1/4) * 2 / (1 + 1/4) = 6/5 and the proportional gain 5/3. *)
Example im_design_gains_example : exists p, In p presets /\ pr_id p = env_id false TorqueControl Dfim /\
  exists c s b, make3 (sample3 p Bare true (Err KeyError) (Ok tt)) 4 = Ok (MImc c s) /\ cs_d s = BPi b /\ cs_q s = BPi b /\ pi_p b = 5 / 3 /\ pi_i b = 25 / 18.
Proof.
  destruct presets_fit_their_ids as (_ & G2 & _). destruct (G2 false TorqueControl Dfim) as (p & Ip & Id). pose proof (motor_of _ _ _ _ Ip Id) as M. exists p. split; [exact Ip|]. split; [exact Id|].
  assert (Dc : is_dc (pr_motor p) = false) by (rewrite M; reflexivity). pose proof (sample3_fits p Bare true (Err KeyError) (Ok tt) Ip Dc) as O. pose proof (no_wrappers p Ip Dc) as An. rewrite M in An.
  assert (Q : forall nm, In nm ["omega"; "torque"] -> quantity (tp_env (sample3 p Bare true (Err KeyError) (Ok tt))) nm 1 1) by (intros nm Hn; unfold quantity; cbn [sample3 tp_env en_names en_limits en_nominal]; rewrite An; repeat (destruct Hn as [<-|Hn]; [eexists; repeat split; reflexivity|]); destruct Hn).
  destruct (im_design_gains TorqueControl Dfim p _ 4 1 1 1 1 1 1 1 1 1 (or_intror eq_refl) Ip Id O ltac:(lra) ltac:(discriminate) eq_refl eq_refl eq_refl eq_refl eq_refl eq_refl (Q "omega" ltac:(cbn; tauto)) (Q "torque" ltac:(cbn; tauto)))
    as (b & H1 & H2 & _ & c & s & H3 & H4 & H5 & _). exists c, s, b. repeat (split; [assumption|]). assert (Tm : (1 - 1 * 1 / ((1 + 1) * (1 + 1))) * (1 + 1) / (1 + 1 * (1 / (1 + 1) * (1 / (1 + 1)))) = 6 / 5) by field. rewrite Tm in H1, H2. split; lra.
Qed.
