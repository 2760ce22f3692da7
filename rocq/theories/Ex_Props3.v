(** Properties of the torque, speed and current control of induction motors in
    examples/classic_controllers: theorems and examples showing that their hypotheses can be
    met. *)
From Verif Require Import PyBaseFacts PyDictFacts Transform_Model Ops_Model Ops_Proofs Ops_Props Ops_Props2.
From Verif Require Import PyBase PyDict PhysSys_Model Ex_Model Ex_Model2 Ex_Spec Ex_Proofs Ex_Proofs2 Ex_Proofs3 Ex_Proofs5 Ex_Props2 Ex_Model3 Ex_Spec2 Ex_Proofs6 Ex_Proofs7.
From Coq Require Import ZArith Lra Lia.
Local Open Scope string_scope.
Local Open Scope list_scope.
Local Open Scope R_scope.

(** ** C167: from the torque to the currents *)
(** Over any history of calls and resets, the flux current stays within 90 per cent of the
    nominal current, the flux demand between zero and a fixed largest flux (at most that of
    the current limit), and the torque current is the largest one in the direction of the
    demand that makes at most the demanded torque and at most the table torque and stays in the
    nominal current circle.  The table torque belongs to a flux at most 1.5 grid steps below
    the demand; only if nominal voltage and speed leave no torque current there, the
    reference is nan. *)
Theorem im_torque_current_best :
  forall e st m s0 p lm lsr lss rr rs ld lq tl n un wn h s outs, im_drive e p lm lsr lss rr rs ld lq tl n un wn -> imt_new e st = Ok (m, s0) -> imt_run m s0 h = Ok (s, outs) ->
  exists fmax, 0 <= fmax <= lm * ld /\ Forall (fun o => match o with (torque, psi, (q, d, flux)) =>
    Rabs (d * ld) <= 9 / 10 * n /\ 0 <= flux <= fmax /\
    exists psi', 0 <= psi' <= flux /\ flux - 3 / 2 * (fmax / 999) <= psi' /\
      ((q_room un wn (lm + lss) lm psi' < 0 /\ q = None) \/
       (0 <= q_room un wn (lm + lss) lm psi' /\ exists v, q = Some (v / lq) /\
        best_q p lm (lm + lsr) (Rmax psi (1 / 1000)) torque (im_torque p lm (lm + lsr) psi' (sqrt (q_room un wn (lm + lss) lm psi'))) n (d * ld) v)) end) outs.
Proof.
  intros e st m s0 p lm lsr lss rr rs ld lq tl n un wn h s outs D N H. pose proof (imt_new_facts _ _ _ _ N) as F. pose proof (dr_run _ _ _ _ _ _ _ _ _ _ _ _ _ _ _ _ F D _ _ _ _ H) as R. exists (mt_psimax m). split.
  - split; [exact (dr_psimax _ _ _ _ _ _ _ _ _ _ _ _ _ _ _ _ F D)|exact (dr_psimax_le _ _ _ _ _ _ _ _ _ _ _ _ _ _ _ _ F D)].
  - eapply Forall_impl; [|exact R]. intros [[t psi] [[q d] f]] (_ & A & B & C). split; [exact A|]. split; [exact B|exact C].
Qed.
Print Assumptions im_torque_current_best.
(** When the largest torque limit needs more flux than the current limit allows for, a call
    never raises. *)
Theorem im_torque_current_total :
  forall e st m s0 p lm lsr lss rr rs ld lq tl n un wn luq nuq h s outs x t psi a b w, im_drive e p lm lsr lss rr rs ld lq tl n un wn -> quantity e "u_sq" luq nuq -> imt_new e st = Ok (m, s0) -> imt_run m s0 h = Ok (s, outs) ->
  (let M := 3 / 2 * p * (lm * lm) / (lm + lsr) in rs * (M * M) * (ld * ld * (ld * ld)) < (rs + rr * (lm * lm) / ((lm + lsr) * (lm + lsr))) * (tl * tl)) ->
  value_of e "u_sd" x a -> value_of e "u_sq" x b -> value_of e "omega" x w -> exists o, imt_control m s x t psi = Ok o.
Proof.
  intros e st m s0 p lm lsr lss rr rs ld lq tl n un wn luq nuq h s outs x t psi a b w D QU N H M (ja & A1 & A2) (jb & B1 & B2) (jw & W1 & W2). pose proof (imt_new_facts _ _ _ _ N) as F.
  apply (dr_total _ _ _ _ _ _ _ _ _ _ _ _ _ _ _ _ F D).
  - destruct (dr_psimax_eq _ _ _ _ _ _ _ _ _ _ _ _ _ _ _ _ F D M) as [E _]. rewrite E. destruct (dr_pos _ _ _ _ _ _ _ _ _ _ _ _ _ D) as (_ & P2 & _ & _ & P5 & _). apply Rmult_lt_0_compat; [exact P2|lra].
  - pose proof (fa_usd _ _ _ _ F) as G1. pose proof (fa_usq _ _ _ _ F) as G2. pose proof (fa_om _ _ _ _ F) as G3. assert (ja = mt_usd m) by congruence. assert (jb = mt_usq m) by congruence. assert (jw = mt_om m) by congruence. subst ja jb jw. exists a, b, w. repeat split; assumption.
  - rewrite (fa_lim _ _ _ _ F). destruct D as (_ & _ & _ & _ & _ & _ & _ & _ & _ & _ & _ & _ & _ & _ & _ & _ & _ & _ & _ & (lu & j & C1 & C2 & _) & (lw & k & K1 & K2 & _)). destruct QU as (jq & Q1 & Q2 & _).
    pose proof (fa_usd _ _ _ _ F) as G1. pose proof (fa_usq _ _ _ _ F) as G2. pose proof (fa_om _ _ _ _ F) as G3. assert (j = mt_usd m) by congruence. assert (jq = mt_usq m) by congruence. assert (k = mt_om m) by congruence. subst j jq k. exists lu, luq, lw. repeat split; assumption.
Qed.
Print Assumptions im_torque_current_total.
(** If nominal voltage and speed allow for the flux of the current limit, the reference is
    never nan ... *)
Theorem im_torque_never_nan :
  forall e st m s0 p lm lsr lss rr rs ld lq tl n un wn h s outs, im_drive e p lm lsr lss rr rs ld lq tl n un wn -> imt_new e st = Ok (m, s0) -> imt_run m s0 h = Ok (s, outs) ->
  0 <= q_room un wn (lm + lss) lm (lm * ld) -> Forall (fun o => fst (fst (snd o)) <> None) outs.
Proof.
  intros e st m s0 p lm lsr lss rr rs ld lq tl n un wn h s outs D N H Q. destruct (im_torque_current_best _ _ _ _ _ _ _ _ _ _ _ _ _ _ _ _ _ _ _ D N H) as (fm & B & R). destruct D as (_ & _ & _ & _ & _ & _ & _ & P2 & _ & _ & _ & P5 & _).
  eapply Forall_impl; [|exact R]. intros [[t psi] [[q d] f]] (_ & A & psi' & C1 & _ & [[Z _]|(_ & v & -> & _)]); cbn; [|discriminate]. exfalso. unfold q_room in *. assert (X : psi' / lm * (psi' / lm) <= lm * ld / lm * (lm * ld / lm)); [|lra].
  assert (I : 0 < / lm) by (apply Rinv_0_lt_compat; exact P2). assert (Y : 0 <= psi' / lm <= lm * ld / lm) by (split; [apply Rmult_le_pos; lra|apply Rmult_le_compat_r; lra]). apply Rmult_le_compat; lra.
Qed.
Print Assumptions im_torque_never_nan.
(** The flux current is the clipped answer of the flux controller to the flux error; the
    error is integrated exactly when the answer was not clipped. *)
Theorem im_flux_controller :
  forall e st m s0 p lm lsr lss rr rs ld lq tl n un wn h s outs x t psi s' q d f, im_drive e p lm lsr lss rr rs ld lq tl n un wn -> imt_new e st = Ok (m, s0) -> imt_run m s0 h = Ok (s, outs) ->
  imt_control m s x t psi = Ok (s', (q, d, f)) ->
  let pg := pi_p (is_psi s) in let z := pi_int (is_psi s) in let y := pg * (f - psi) + pg / en_tau e * (z + (f - psi) * en_tau e) in
  (exists g, dict_item "p_gain" (st_par st) = Ok g /\ pg = g * 2 * ((lm + lss) / rs * ((lm + lss) / rs))) /\ pi_p (is_psi s') = pg /\
  ((Rabs y <= 9 / 10 * n /\ d * ld = y /\ pi_int (is_psi s') = z + (f - psi) * en_tau e) \/
   (9 / 10 * n < Rabs y /\ d * ld = np_sign y * (9 / 10 * n) /\ pi_int (is_psi s') = z)).
Proof.
  intros e st m s0 p lm lsr lss rr rs ld lq tl n un wn h s outs x t psi s' q d f D N H C pg z y. pose proof (imt_new_facts _ _ _ _ N) as F.
  assert (G0 : exists g, dict_item "p_gain" (st_par st) = Ok g /\ is_psi s0 = {| pi_p := g * 2 * ((lm + lss) / rs * ((lm + lss) / rs)); pi_i := g * 2 * ((lm + lss) / rs * ((lm + lss) / rs)) / en_tau e; pi_tau := en_tau e; pi_int := 0 |}).
  { unfold imt_new in N. destruct D as (A1 & A2 & A3 & A4 & A5 & A6 & _). rewrite A2 in N. cbn [bind] in N. rewrite A3 in N. cbn [bind] in N. rewrite A4 in N. cbn [bind] in N. rewrite A5 in N. cbn [bind] in N. rewrite A6 in N. cbn [bind] in N. rewrite A1 in N. cbn [bind] in N. ub6 N. apply ok_inj in N. apply (f_equal snd) in N. cbn [snd] in N. subst s0. eexists. split; [reflexivity|reflexivity]. }
  destruct G0 as (g & G1 & G2).
  assert (INV : forall h s s2 outs, imt_run m s h = Ok (s2, outs) -> pi_reset (is_psi s2) = pi_reset (is_psi s)).
  { clear. induction h as [|[x t psi|] h IH]; intros s s2 outs H; cbn [imt_run] in H.
    - apply ok_inj in H. injection H as <- _. reflexivity.
    - destruct (imt_control m s x t psi) as [o|] eqn:Eo; [|discriminate]. cbn [bind] in H. destruct (imt_run m (fst o) h) as [[s3 l]|] eqn:E3; [|discriminate]. cbn [bind fst snd] in H. apply ok_inj in H. assert (s3 = s2) by congruence. subst s3. rewrite (IH _ _ _ E3). exact (imt_control_psi _ _ _ _ _ _ Eo).
    - rewrite (IH _ _ _ H). reflexivity. }
  pose proof (INV _ _ _ _ H) as I1. rewrite G2 in I1. cbn in I1. unfold pi_reset in I1. injection I1 as J1 J2 J3. fold pg in J1.
  split; [exists g; split; [exact G1|exact J1]|]. destruct (dr_isd _ _ _ _ _ _ _ _ _ _ _ _ _ _ _ _ F D) as [L1 L2]. destruct (dr_pos _ _ _ _ _ _ _ _ _ _ _ _ _ D) as (_ & _ & _ & _ & P5 & _ & _ & P8 & _).
  unfold imt_control in C. destruct (im_psi_idx m t) as [k|]; [|discriminate]. cbn [bind] in C. destruct (np_at (mt_opt m) k) as [row|]; [|discriminate]. cbn [bind] in C. destruct (im_modulation m (is_int s) x) as [mo|]; [|discriminate]. cbn [bind] in C. destruct (im_t_idx m (Rmin (sr_psi row) (snd mo))) as [g0|]; [|discriminate]. cbn [bind] in C. destruct (np_at (mt_tab m) (Z.of_nat scim_psi_count - g0)) as [tm|]; [|discriminate]. cbn [bind] in C. rewrite L2 in C. cbn [bind] in C.
  destruct (item (mt_nominal m) (mt_isq m)) as [nq|]; [|discriminate]. cbn [bind] in C. destruct (item (mt_limits m) (mt_isq m)) as [lq'|]; [|discriminate]. cbn [bind] in C. rewrite L1 in C. cbn [bind] in C. apply ok_inj in C. set (f0 := Rmin (sr_psi row) (snd mo)) in *. clearbody f0.
  assert (Ef : f0 = f) by congruence. subst f0. set (y0 := pi_control (is_psi s) psi f) in C. assert (Y : y0 = y) by (unfold y0, pi_control, y; rewrite J2, J3; fold pg z; rewrite J1; reflexivity). rewrite Y in C. clear y0 Y.
  assert (Ed : d * ld = np_clip y (- (9 / 10) * n) (9 / 10 * n)). { assert (Q : d = np_clip y (- (9 / 10) * n) (9 / 10 * n) / ld) by congruence. rewrite Q. field. lra. }
  assert (Es : is_psi s' = if req y (np_clip y (- (9 / 10) * n) (9 / 10 * n)) then pi_integrate (is_psi s) psi f else is_psi s) by (apply (f_equal fst) in C; cbn [fst] in C; subst s'; reflexivity). clear C.
  rewrite Ed, Es. assert (B : - (9 / 10) * n <= 9 / 10 * n) by lra. destruct (np_clip_cases y _ _ B) as [[Y1 Y2]|[[Y1 Y2]|[Y1 Y2]]]; rewrite Y2.
  - destruct (reqP y (- (9 / 10) * n)) as [Q|_]; [lra|]. split; [reflexivity|]. right. rewrite Rabs_left by lra. split; [lra|]. split; [|reflexivity]. unfold np_sign. destruct (rltP y 0); lra.
  - destruct (reqP y y) as [_|Q]; [|contradiction]. split; [reflexivity|]. left. split; [apply Rabs_le; lra|]. split; [reflexivity|]. cbn. rewrite J3. reflexivity.
  - destruct (reqP y (9 / 10 * n)) as [Q|_]; [lra|]. split; [reflexivity|]. right. rewrite Rabs_pos_eq by lra. split; [lra|]. split; [|reflexivity]. unfold np_sign. destruct (rltP y 0); [lra|]. destruct (rltP 0 y); lra.
Qed.
Print Assumptions im_flux_controller.
(** A drive with the parameters of the squirrel cage motor of the package *)
Definition im_names : list string := ["omega"; "torque"; "i_sa"; "i_sb"; "i_sc"; "i_sd"; "i_sq"; "u_sa"; "u_sb"; "u_sc"; "u_sd"; "u_sq"; "epsilon"; "u_sup"].
Definition im_env (wn : R) : env :=
  {| en_names := im_names; en_low := [-1; -1; -1; -1; -1; -1; -1; -1; -1; -1; -1; -1; -1; 0]; en_high := [1; 1; 1; 1; 1; 1; 1; 1; 1; 1; 1; 1; 1; 1];
     en_limits := [200; 40; 10; 10; 10; 10; 10; 300; 300; 300; 300; 300; 4; 600]; en_nominal := [wn; 30; 8; 8; 8; 8; 8; 230; 230; 230; 230; 230; 4; 600];
     en_cur := [2; 3; 4]%nat; en_volt := [7; 8; 9]%nat; en_space := SBox [-1; -1; -1] [1; 1; 1];
     en_mp := [("p", 2); ("l_m", 14375 / 100000); ("l_sigr", 587 / 100000); ("l_sigs", 587 / 100000); ("r_r", 1355 / 1000); ("r_s", 29338 / 10000)];
     en_extex := false; en_tau := 1 / 10000 |}.
Definition im_stage : stage := {| st_type := "pi_controller"; st_par := [("p_gain", 10); ("i_gain", 100)] |}.
Lemma im_env_drive wn : 0 < wn -> im_drive (im_env wn) 2 (14375 / 100000) (587 / 100000) (587 / 100000) (1355 / 1000) (29338 / 10000) 10 10 40 8 230 wn.
Proof.
  intros W. unfold im_drive. do 6 (split; [reflexivity|]). do 9 (split; [lra|]). split; [exact W|]. split; [exists 5%nat; repeat split; reflexivity|]. split; [exists 6%nat; repeat split; reflexivity|].
  split; [exists 30, 1%nat; repeat split; reflexivity|]. split; [exists 300, 10%nat; repeat split; reflexivity|]. exists 200, 0%nat. repeat split; reflexivity.
Qed.
Lemma im_env_new wn : 0 < wn -> exists m s0, imt_new (im_env wn) im_stage = Ok (m, s0) /\ mt_psimax m = 14375 / 100000 * (498 / 499 * 10) /\ (exists row, np_at (mt_opt m) 1000 = Ok row /\ sr_psi row = mt_psimax m) /\
  mt_usd m = 10%nat /\ mt_usq m = 11%nat /\ mt_om m = 0%nat.
Proof.
  intros W. assert (N : exists m s0, imt_new (im_env wn) im_stage = Ok (m, s0)).
  { unfold imt_new. cbn [en_mp im_env dict_item dict_get fst snd String.eqb Ascii.eqb Bool.eqb bind]. cbn -[psi_opt_table np_max t_max_table sqrt im_alpha]. unfold dict_item. cbn -[psi_opt_table np_max t_max_table sqrt im_alpha].
    match goal with |- context [psi_opt_table ?c ?a ?b ?d] => destruct (psi_opt_table_ok c a b d) as (tab & E & L) end. rewrite E. cbn [bind]. destruct tab as [|r0 tab]; [discriminate L|]. cbn -[t_max_table sqrt im_alpha]. do 2 eexists. reflexivity. }
  destruct N as (m & s0 & N). pose proof (imt_new_facts _ _ _ _ N) as F. exists m, s0. split; [exact N|]. destruct (dr_psimax_eq _ _ _ _ _ _ _ _ _ _ _ _ _ _ _ _ F (im_env_drive wn W)) as [E R]; [cbn zeta; lra|]. split; [exact E|]. split; [exact R|].
  pose proof (fa_usd _ _ _ _ F) as G1. pose proof (fa_usq _ _ _ _ F) as G2. pose proof (fa_om _ _ _ _ F) as G3. cbn in G1, G2, G3. repeat split; congruence.
Qed.
(** calls on the drive *)
Lemma im_env_call wn m s0 s u1 u2 w rest t psi : 0 < wn -> imt_new (im_env wn) im_stage = Ok (m, s0) -> length rest = 9%nat ->
  (exists o, imt_control m s ([w] ++ rest ++ [u1; u2]) t psi = Ok o).
Proof.
  intros W N L. pose proof (imt_new_facts _ _ _ _ N) as F. destruct (im_env_new wn W) as (m' & s0' & N' & E & _ & I1 & I2 & I3). rewrite N in N'. apply ok_inj in N'. assert (m' = m) by congruence. subst m'.
  apply (dr_total _ _ _ _ _ _ _ _ _ _ _ _ _ _ _ _ F (im_env_drive wn W)); [rewrite E; lra| |].
  - rewrite I1, I2, I3. do 9 (destruct rest as [|? rest]; [discriminate L|]). destruct rest; [|discriminate L]. exists u1, u2, w. repeat split; reflexivity.
  - rewrite (fa_lim _ _ _ _ F), I1, I2, I3. exists 300, 300, 200. repeat split; reflexivity.
Qed.
Definition im_x (w u1 u2 : R) : list R := [w] ++ repeat 0 9 ++ [u1; u2].
(** The hypotheses are met: nominal speed 100 rad/s, three calls and a reset. *)
Example im_torque_current_example : exists m s0 s outs, imt_new (im_env 100) im_stage = Ok (m, s0) /\
  imt_run m s0 [TControl (im_x 0 0 0) 20 (1 / 2); TControl (im_x 1 1 1) 30 1; TReset; TControl (im_x (1 / 2) 0 1) (-30) 1] = Ok (s, outs) /\ length outs = 3%nat /\
  0 <= q_room 230 100 (14375 / 100000 + 587 / 100000) (14375 / 100000) (14375 / 100000 * 10).
Proof.
  destruct (im_env_new 100 ltac:(lra)) as (m & s0 & N & _). exists m, s0. cbn [imt_run].
  destruct (im_env_call 100 m s0 s0 0 0 0 (repeat 0 9) 20 (1 / 2) ltac:(lra) N eq_refl) as (o1 & E1). destruct (im_env_call 100 m s0 (fst o1) 1 1 1 (repeat 0 9) 30 1 ltac:(lra) N eq_refl) as (o2 & E2).
  destruct (im_env_call 100 m s0 (imt_reset (fst o2)) 0 1 (1 / 2) (repeat 0 9) (-30) 1 ltac:(lra) N eq_refl) as (o3 & E3). unfold im_x. rewrite E1. cbn [bind]. rewrite E2. cbn [bind]. rewrite E3. cbn [bind fst snd].
  do 2 eexists. split; [exact N|]. split; [reflexivity|]. split; [reflexivity|]. unfold q_room. lra.
Qed.
(** ... otherwise it can be: with 157 rad/s, the largest torque at standstill gives nan, whatever
    happened before. *)
Theorem im_torque_nan_refuted :
  forall h, exists m s0, imt_new (im_env 157) im_stage = Ok (m, s0) /\ forall s outs psi, imt_run m s0 h = Ok (s, outs) -> exists s' d f, imt_control m s (im_x 0 0 0) 40 psi = Ok (s', (None, d, f)).
Proof.
  intros h. destruct (im_env_new 157 ltac:(lra)) as (m & s0 & N & E & (row & Er & Ep) & I1 & I2 & I3). exists m, s0. split; [exact N|]. intros s outs psi _. destruct (im_env_call 157 m s0 s 0 0 0 (repeat 0 9) 40 psi ltac:(lra) N eq_refl) as ([s' [[q d] f]] & C).
  exists s', d, f. unfold im_x. rewrite C. pose proof (imt_new_facts _ _ _ _ N) as F. pose proof (im_env_drive 157 ltac:(lra)) as D. destruct (dr_call _ _ _ _ _ _ _ _ _ _ _ _ _ _ _ _ F D _ _ _ _ _ _ _ _ C) as (_ & _ & Fb & psi' & P1 & P2 & Z).
  assert (FE : f = mt_psimax m).
  { unfold imt_control in C. destruct (im_psi_idx m 40) as [k|] eqn:K; [|discriminate]. cbn [bind] in C. assert (K1 : k = 1000%Z).
    { unfold im_psi_idx in K. rewrite (dr_tmax _ _ _ _ _ _ _ _ _ _ _ _ _ _ _ _ F D) in K. destruct (reqP 40 0); [lra|]. apply ok_inj in K. rewrite np_clip_id in K by lra. rewrite <- K. replace ((40 - - (40)) / (40 - - (40)) * INR (scim_t_count - 1)) with (INR 1000); [apply py_round_INR|]. unfold scim_t_count. change (1001 - 1)%nat with 1000%nat. field. }
    subst k. rewrite Er in C. cbn [bind] in C. destruct (im_modulation m (is_int s) _) as [mo|] eqn:Em in C; [|discriminate]. cbn [bind] in C. ub6 C. apply ok_inj in C. assert (f = Rmin (sr_psi row) (snd mo)) by congruence. subst f. rewrite Ep. apply Rmin_left.
    assert (P0 : 0 <= mt_psimax m) by (rewrite E; lra). destruct (mod_eq _ _ _ _ P0 Em) as (sd & ld & sq & lq & w & lw & _ & _ & _ & _ & B5 & B6 & FM & _). cbn zeta in FM. rewrite I3 in B5, B6. cbn in B5. apply ok_inj in B5. subst w. rewrite FM.
    eapply Rle_trans; [|apply Rmax_l]. match goal with |- context [np_clip ?x ?a ?b] => pose proof (np_clip_both x a b ltac:(lra)) as CB; set (cl := np_clip x a b) in * end. clearbody cl.
    unfold mod_om. rewrite Rabs_R0, Rmult_0_l. rewrite Rmax_right by lra. rewrite (Rabs_pos_eq (1 / 10000)) by lra.
    destruct (fa_udc _ _ _ _ F) as (ja & la & J1 & J2 & J3). cbn in J1. assert (ja = 7%nat) by congruence. subst ja. cbn in J2. assert (la = 300) by congruence. subst la. rewrite J3. rewrite (dr_c _ _ _ _ _ _ _ _ _ _ _ _ _ _ _ _ F D). cbn [sc_p].
    replace (sqrt 3 * 300 / (sqrt 3 * (1 / 10000) * 2)) with 1500000 by (field; pose proof (sqrt_lt_R0 3); lra). lra. }
  destruct Z as [[_ ->]|(Z & _)]; [reflexivity|]. exfalso. rewrite FE, E in P2. assert (P3 : 1432 / 1000 <= psi') by lra. unfold q_room in Z.
  assert (X : 996 / 100 <= psi' / (14375 / 100000)) by (replace (psi' / (14375 / 100000)) with (psi' * (100000 / 14375)) by field; lra). assert (Y : 996 / 100 * (996 / 100) <= psi' / (14375 / 100000) * (psi' / (14375 / 100000))) by (apply Rmult_le_compat; lra).
  assert (W : 230 * 230 / (157 * 157 * ((14375 / 100000 + 587 / 100000) * (14375 / 100000 + 587 / 100000))) < 97); [|lra]. lra.
Qed.
Print Assumptions im_torque_nan_refuted.

(** ** C168: reset *)
Lemma imt_run_split m h1 h2 : forall s s2 outs, imt_run m s (h1 ++ h2) = Ok (s2, outs) -> exists s1 o1 o2, imt_run m s h1 = Ok (s1, o1) /\ imt_run m s1 h2 = Ok (s2, o2).
Proof.
  induction h1 as [|[x t psi|] h1 IH]; intros s s2 outs H; cbn [imt_run app] in *.
  - exists s, [], outs. split; [reflexivity|exact H].
  - destruct (imt_control m s x t psi) as [o|]; [|discriminate]. cbn [bind] in *. destruct (imt_run m (fst o) (h1 ++ h2)) as [[s3 l]|] eqn:E3; [|discriminate]. cbn [bind] in H. apply ok_inj in H. assert (s3 = s2) by (cbn [fst] in H; congruence). subst s3. destruct (IH _ _ _ E3) as (s1 & o1 & o2 & A & B). rewrite A. do 3 eexists. split; [reflexivity|exact B].
  - exact (IH _ _ _ H).
Qed.
Lemma imt_control_mod m s x t psi o : imt_control m s x t psi = Ok o -> exists k row r, im_psi_idx m t = Ok k /\ np_at (mt_opt m) k = Ok row /\ im_modulation m (is_int s) x = Ok r /\ flux_of o = Rmin (sr_psi row) (snd r) /\ is_int (fst o) = fst r.
Proof. unfold imt_control. intros H. ub6 H. apply ok_inj in H. subst o. do 3 eexists. repeat split; try eassumption; reflexivity. Qed.
(** Once a call has met an over-modulated state, the flux limitation survives every [reset]: the
    flux demanded afterwards is at most that of a new controller, and smaller where the voltage
    limits the flux. *)
Theorem im_reset_flux_refuted :
  forall e st m s0 p lm lsr lss rr rs ld lq tl n un wn la nu h x t1 psi1 s1 outs y t psi o0 o1,
  im_drive e p lm lsr lss rr rs ld lq tl n un wn -> quantity e "u_sa" la nu -> 0 < la -> 0 <= en_tau e -> imt_new e st = Ok (m, s0) ->
  imt_run m s0 (h ++ [TControl x t1 psi1; TReset]) = Ok (s1, outs) -> over_modulated e x ->
  imt_control m s0 y t psi = Ok o0 -> imt_control m s1 y t psi = Ok o1 ->
  flux_of o1 <= flux_of o0 /\
  ((exists z oz, imt_control m s0 z t psi = Ok oz /\ flux_of o0 < flux_of oz) -> ~ over_modulated e y -> 0 < flux_of o0 ->
   (exists d, first_correction e p (lm + lss) rs y d /\ - mt_psimax m < d <= 1 / 10 * mt_psimax m) -> flux_of o1 < flux_of o0).
Proof.
  intros e st m s0 p lm lsr lss rr rs ld lq tl n un wn la nu h x t1 psi1 s1 outs y t psi o0 o1 D (ja & QA1 & QA2 & _) La Ta N H Ov C0 C1. pose proof (imt_new_facts _ _ _ _ N) as F.
  destruct (dr_pos _ _ _ _ _ _ _ _ _ _ _ _ _ D) as (P1 & P2 & P3 & P4 & _). pose proof (dr_c _ _ _ _ _ _ _ _ _ _ _ _ _ _ _ _ F D) as EC. assert (Prs : 0 < rs) by (destruct D as (_ & _ & _ & _ & _ & _ & _ & _ & _ & _ & ? & _); assumption).
  assert (U3 : 0 < sqrt 3) by (apply sqrt_lt_R0; lra). assert (UD : mt_udc m = sqrt 3 * la). { destruct (fa_udc _ _ _ _ F) as (j & la' & A1 & A2 & ->). congruence. } assert (U0 : 0 < mt_udc m) by (rewrite UD; apply Rmult_lt_0_compat; assumption).
  assert (PM : 0 < mt_psimax m). { destruct o0 as [s' [[q d] f]]. exact (proj1 (dr_call _ _ _ _ _ _ _ _ _ _ _ _ _ _ _ _ F D _ _ _ _ _ _ _ _ C0)). }
  assert (G0 : 0 < mt_gain m). { rewrite (fa_gain _ _ _ _ F), EC. cbn [sc_ls sc_rs]. pose proof im_alpha_gt as AG. apply Rdiv_lt_0_compat; [apply Rmult_lt_0_compat; [|lra]|apply Rmult_lt_0_compat; lra]. apply Rdiv_lt_0_compat; [lra|]. apply Rdiv_lt_0_compat; lra. }
  assert (PP : 0 < sc_p (mt_c m)) by (rewrite EC; exact P1).
  destruct (imt_run_split _ _ _ _ _ _ H) as (sh & oh & oe & _ & HE). cbn [imt_run] in HE. destruct (imt_control m sh x t1 psi1) as [ox|] eqn:EX; [|discriminate]. cbn [bind] in HE. apply ok_inj in HE. assert (S1 : s1 = imt_reset (fst ox)) by (cbn [fst] in HE; congruence). subst s1.
  destruct (imt_control_mod _ _ _ _ _ _ EX) as (_ & _ & rx & _ & _ & MX & _ & IX).
  assert (IN : is_int (imt_reset (fst ox)) <= - (mt_psimax m / 2)).
  { unfold imt_reset. cbn [is_int]. rewrite IX. destruct Ov as (jd & jq & ja' & sd & sq & ld' & lq' & la' & A1 & A2 & A3 & A4 & A5 & A6 & A7 & A8 & A9). pose proof (fa_usd _ _ _ _ F) as G1. pose proof (fa_usq _ _ _ _ F) as G2. assert (jd = mt_usd m) by congruence. assert (jq = mt_usq m) by congruence. subst jd jq. assert (la' = la) by congruence. subst la'.
    rewrite <- (fa_lim _ _ _ _ F) in A6, A7. apply (mod_over m (is_int sh) x rx sd ld' sq lq' ltac:(lra)); try assumption; [rewrite (fa_tau _ _ _ _ F); exact Ta|]. unfold mod_a. rewrite UD. apply Rmult_lt_reg_r with (sqrt 3 * la); [rewrite <- UD; exact U0|]. unfold Rdiv at 2. rewrite Rmult_assoc, Rinv_l by (rewrite <- UD; lra). lra. }
  destruct (imt_control_mod _ _ _ _ _ _ C0) as (k & row & r0 & K1 & K2 & M0 & FX0 & _). destruct (imt_control_mod _ _ _ _ _ _ C1) as (k' & row' & r1 & K1' & K2' & M1 & FX1 & _). assert (k' = k) by congruence. subst k'. assert (row' = row) by congruence. subst row'.
  rewrite (fa_int _ _ _ _ F) in M0. assert (IN0 : is_int (imt_reset (fst ox)) <= 0) by lra. destruct (mod_lower m _ 0 y r1 r0 PM G0 PP U0 IN0 M1 M0) as [LE LT]. rewrite FX0, FX1. split; [unfold Rmin; repeat destruct (Rle_dec _ _); lra|].
  intros (z & oz & CZ & FW) NO P0 (d & FC & DB). destruct (imt_control_mod _ _ _ _ _ _ CZ) as (k' & row' & rz & K1z & K2z & _ & FXz & _). assert (k' = k) by congruence. subst k'. assert (row' = row) by congruence. subst row'. rewrite FXz in FW.
  assert (S0 : snd r0 < sr_psi row) by (unfold Rmin in FW; repeat destruct (Rle_dec _ _); lra). assert (S0' : 0 < snd r0) by (unfold Rmin in P0; destruct (Rle_dec _ _); lra).
  destruct FC as (jd & jq & ja' & jw & sd & sq & w & ld' & lq' & la' & lw & A1 & A2 & A3 & A4 & A5 & A6 & A7 & A8 & A9 & A10 & A11 & A12). cbn zeta in A12.
  assert (la' = la) by congruence. subst la'. pose proof (fa_usd _ _ _ _ F) as G1. pose proof (fa_usq _ _ _ _ F) as G2. pose proof (fa_om _ _ _ _ F) as G3. assert (E1 : jd = mt_usd m) by congruence. assert (E2 : jq = mt_usq m) by congruence. assert (E3 : jw = mt_om m) by congruence.
  assert (LTT : snd r1 < snd r0). { subst jd jq jw. pose proof (fa_lim _ _ _ _ F) as FL. rewrite <- FL in A8, A9, A11.
    apply (LT sd ld' sq lq' w lw); try assumption; [|lra|].
    - destruct (Rle_dec (mod_a m sd ld' sq lq') (101 / 100)) as [Q|Q]; [exact Q|]. exfalso. apply NO. exists (mt_usd m), (mt_usq m), ja', sd, sq, ld', lq', la. rewrite <- FL. repeat (split; [assumption|]). split; [rewrite FL; assumption|]. apply Rnot_le_lt in Q. unfold mod_a in Q. rewrite UD in Q. apply (Rmult_lt_compat_r (sqrt 3 * la)) in Q; [|rewrite <- UD; exact U0]. unfold Rdiv at 2 in Q. rewrite (Rmult_assoc _ (/ _)), Rinv_l in Q by (rewrite <- UD; lra). lra.
    - rewrite Rplus_0_r. unfold mod_k, mod_a, mod_om. rewrite UD, (fa_gain _ _ _ _ F), (fa_tau _ _ _ _ F), EC. cbn [sc_ls sc_rs sc_p]. unfold im_alpha. replace (2 * 2 - 1) with 3 by ring. rewrite <- A12. exact DB. }
  unfold Rmin. repeat destruct (Rle_dec _ _); lra.
Qed.
Print Assumptions im_reset_flux_refuted.
(** Everything else is reset: the actions after a [reset] are those of a new controller with the
    value that the integrator of the modulation controller had. *)
Theorem imc_reset_like_new :
  forall e ss0 ss1 refs dec c s0 h s l, imc_new e ss0 ss1 refs dec = Ok (c, s0) -> imc_run c s0 h = Ok (Some (s, l)) ->
  forall h', acts_of (imc_run c (imc_reset s) h') = acts_of (imc_run c (with_int (int_of s) s0) h').
Proof. intros e ss0 ss1 refs dec c s0 h s l N H h'. exact (imc_after_reset _ _ _ _ _ _ _ _ _ _ N H h'). Qed.
Print Assumptions imc_reset_like_new.
(** Without torque and speed references the controller has no such integrator: a [reset] makes
    it new. *)
Theorem imc_reset_current_mode :
  forall e ss0 ss1 refs dec c s0 h s l, torque_mode refs = false -> imc_new e ss0 ss1 refs dec = Ok (c, s0) -> imc_run c s0 h = Ok (Some (s, l)) ->
  forall h', acts_of (imc_run c (imc_reset s) h') = acts_of (imc_run c s0 h').
Proof.
  intros e ss0 ss1 refs dec c s0 h s l T N H h'. rewrite (imc_after_reset _ _ _ _ _ _ _ _ _ _ N H h'). f_equal. f_equal. assert (Z : cs_t s0 = None).
  { unfold imc_new in N. destruct (en_space e); try discriminate. rewrite T in N. ub6 N. apply ok_inj in N. apply (f_equal snd) in N. cbn [snd] in N. subst s0. reflexivity. }
  destruct s0 as [rf fl ct cd cq co]. cbn in Z. subst ct. reflexivity.
Qed.
Print Assumptions imc_reset_current_mode.
(** The hypotheses of [im_reset_flux_refuted] are met: at 150 rad/s without voltage, after one
    over-modulated call. *)
Example im_reset_flux_example : exists m s0 s1 outs o0 o1, imt_new (im_env 100) im_stage = Ok (m, s0) /\ imt_run m s0 ([] ++ [TControl (im_x 1 1 1) 30 1; TReset]) = Ok (s1, outs) /\ over_modulated (im_env 100) (im_x 1 1 1) /\
  imt_control m s0 (im_x (3 / 4) 0 0) 40 1 = Ok o0 /\ imt_control m s1 (im_x (3 / 4) 0 0) 40 1 = Ok o1 /\ flux_of o1 < flux_of o0.
Proof.
  destruct (im_env_new 100 ltac:(lra)) as (m & s0 & N & E & (row & Er & Ep) & I1 & I2 & I3). destruct (im_env_call 100 m s0 s0 1 1 1 (repeat 0 9) 30 1 ltac:(lra) N eq_refl) as (ox & EX).
  destruct (im_env_call 100 m s0 s0 0 0 (3 / 4) (repeat 0 9) 40 1 ltac:(lra) N eq_refl) as (o0 & E0). destruct (im_env_call 100 m s0 (imt_reset (fst ox)) 0 0 (3 / 4) (repeat 0 9) 40 1 ltac:(lra) N eq_refl) as (o1 & E1).
  destruct (im_env_call 100 m s0 s0 0 0 0 (repeat 0 9) 40 1 ltac:(lra) N eq_refl) as (oz & EZ).
  assert (Rn : imt_run m s0 ([] ++ [TControl (im_x 1 1 1) 30 1; TReset]) = Ok (imt_reset (fst ox), [(30, 1, snd ox)])) by (cbn [app imt_run]; unfold im_x; rewrite EX; reflexivity).
  assert (S3 : 17 / 10 < sqrt 3 < 18 / 10). { split; [apply Rsqr_incrst_0; [|lra|apply sqrt_pos]|apply Rsqr_incrst_0; [|apply sqrt_pos|lra]]; unfold Rsqr; rewrite sqrt_sqrt; lra. }
  assert (OV : over_modulated (im_env 100) (im_x 1 1 1)). { exists 10%nat, 11%nat, 7%nat, 1, 1, 300, 300, 300. repeat (split; [reflexivity|]). replace (1 * 300 * (1 * 300) + 1 * 300 * (1 * 300)) with 180000 by ring. assert (400 < sqrt 180000) by (apply Rsqr_incrst_0; [|lra|apply sqrt_pos]; unfold Rsqr; rewrite sqrt_sqrt; lra). lra. }
  assert (NO : ~ over_modulated (im_env 100) (im_x (3 / 4) 0 0)). { intros (jd & jq & ja & sd & sq & ld & lq & la & A1 & A2 & A3 & A4 & A5 & A6 & A7 & A8 & A9). cbn in A1, A2, A3. apply ok_inj in A1, A2, A3. subst jd jq ja. cbn in A4, A5, A6, A7, A8. apply ok_inj in A4, A5, A6, A7, A8. subst. replace (0 * 300 * (0 * 300) + 0 * 300 * (0 * 300)) with 0 in A9 by ring. rewrite sqrt_0 in A9. lra. }
  exists m, s0, (imt_reset (fst ox)), [(30, 1, snd ox)], o0, o1. split; [exact N|]. split; [exact Rn|]. split; [exact OV|]. split; [exact E0|]. split; [exact E1|].
  pose proof (im_env_drive 100 ltac:(lra)) as D. pose proof (imt_new_facts _ _ _ _ N) as F.
  destruct (im_reset_flux_refuted _ _ _ _ _ _ _ _ _ _ _ _ _ _ _ _ 300 230 _ _ _ _ _ _ _ _ _ _ _ D ltac:(exists 7%nat; repeat split; reflexivity) ltac:(lra) ltac:(cbn; lra) N Rn OV E0 E1) as [_ S].
  (* fluxes *)
  assert (K : im_psi_idx m 40 = Ok 1000%Z). { unfold im_psi_idx. rewrite (dr_tmax _ _ _ _ _ _ _ _ _ _ _ _ _ _ _ _ F D). destruct (reqP 40 0); [lra|]. f_equal. rewrite np_clip_id by lra. replace ((40 - - (40)) / (40 - - (40)) * INR (scim_t_count - 1)) with (INR 1000); [apply py_round_INR|]. unfold scim_t_count. change (1001 - 1)%nat with 1000%nat. field. }
  assert (UD : mt_udc m = sqrt 3 * 300). { destruct (fa_udc _ _ _ _ F) as (ja & la & J1 & J2 & ->). cbn in J1. assert (ja = 7%nat) by congruence. subst ja. cbn in J2. congruence. }
  assert (EC := dr_c _ _ _ _ _ _ _ _ _ _ _ _ _ _ _ _ F D). assert (P0 : 0 <= mt_psimax m) by (rewrite E; lra).
  destruct (imt_control_mod _ _ _ _ _ _ EZ) as (kz & rowz & rz & Z1 & Z2 & Z3 & Z4 & _). assert (kz = 1000%Z) by congruence. subst kz. assert (rowz = row) by congruence. subst rowz.
  destruct (imt_control_mod _ _ _ _ _ _ E0) as (k0 & row0 & r0 & Y1 & Y2 & Y3 & Y4 & _). assert (k0 = 1000%Z) by congruence. subst k0. assert (row0 = row) by congruence. subst row0.
  assert (FZ : flux_of oz = mt_psimax m).
  { rewrite Z4, Ep. apply Rmin_left. destruct (mod_eq _ _ _ _ P0 Z3) as (sd & ld & sq & lq & w & lw & _ & _ & _ & _ & B5 & B6 & FM & _). cbn zeta in FM. rewrite I3 in B5, B6. cbn in B5. apply ok_inj in B5. subst w. rewrite FM.
    eapply Rle_trans; [|apply Rmax_l]. match goal with |- context [np_clip ?x ?a ?b] => pose proof (np_clip_both x a b ltac:(lra)) as CB; set (cl := np_clip x a b) in * end. clearbody cl.
    unfold mod_om. rewrite Rabs_R0, Rmult_0_l. rewrite Rmax_right by lra. rewrite (Rabs_pos_eq (1 / 10000)) by lra. rewrite UD, EC. cbn [sc_p]. replace (sqrt 3 * 300 / (sqrt 3 * (1 / 10000) * 2)) with 1500000 by (field; lra). lra. }
  assert (AL : 1 < 2 / (2 - sqrt 3)) by (pose proof im_alpha_gt as AG; unfold im_alpha in AG; replace (2 * 2 - 1) with 3 in AG by ring; exact AG).
  set (al := 2 / (2 - sqrt 3)) in *. set (k := 1 / ((14375 / 100000 + 587 / 100000) / (125 / 100 * (29338 / 10000))) * (al - 1) / (al * al)).
  assert (Kb : 0 <= k <= 7). { replace k with (1 / ((14375 / 100000 + 587 / 100000) / (125 / 100 * (29338 / 10000))) * ((al - 1) / (al * al))) by (unfold k; field; lra). assert (Q : 0 <= (al - 1) / (al * al) <= 1 / 4). { assert (A2 : 0 < al * al) by (apply Rmult_lt_0_compat; lra). pose proof (Rle_0_sqr (al - 2)) as SQ. unfold Rsqr in SQ. split; [left; apply Rdiv_lt_0_compat; lra|]. apply Rmult_le_reg_r with (al * al); [exact A2|]. unfold Rdiv at 1. rewrite Rmult_assoc, Rinv_l by lra. lra. } replace (1 / ((14375 / 100000 + 587 / 100000) / (125 / 100 * (29338 / 10000)))) with (3667250 / 149620) by field. lra. }
  set (d := k * (2 * 150 * 2 / (sqrt 3 * 300)) * (8 / 10 * (1 / 10000))).
  assert (Db : 0 <= d <= 1 / 100). { assert (Q : 0 <= 2 * 150 * 2 / (sqrt 3 * 300) <= 2). { split; [left; apply Rdiv_lt_0_compat; lra|]. apply Rmult_le_reg_r with (sqrt 3 * 300); [lra|]. unfold Rdiv. rewrite Rmult_assoc, Rinv_l by lra. lra. } assert (Q2 : 0 <= k * (2 * 150 * 2 / (sqrt 3 * 300)) <= 7 * 2) by (split; [apply Rmult_le_pos; lra|apply Rmult_le_compat; lra]). unfold d. lra. }
  assert (F0 : 0 < flux_of o0 < mt_psimax m).
  { rewrite Y4, Ep. destruct (mod_eq _ _ _ _ P0 Y3) as (sd & ld & sq & lq & w & lw & B1 & B2 & B3 & B4 & B5 & B6 & FM & _). cbn zeta in FM. rewrite (fa_lim _ _ _ _ F), ?I1, ?I2, I3 in *. cbn in B1, B2, B3, B4, B5, B6. apply ok_inj in B1, B2, B3, B4, B5, B6. subst sd ld sq lq w lw.
    assert (MO : mod_om (3 / 4) 200 = 150) by (unfold mod_om; rewrite Rabs_pos_eq by lra; rewrite Rmax_left by lra; field).
    assert (MA : mod_a m 0 300 0 300 = 0) by (unfold mod_a; replace (0 * 300 * (0 * 300) + 0 * 300 * (0 * 300)) with 0 by ring; rewrite sqrt_0; unfold Rdiv; ring).
    rewrite MA, (fa_int _ _ _ _ F) in FM. destruct (rltP (101 / 100) 0); [lra|]. rewrite MO in FM. rewrite (Rabs_pos_eq 150) in FM by lra. rewrite UD, EC in FM. cbn [sc_p] in FM. replace (sqrt 3 * 300 / (sqrt 3 * 150 * 2)) with 1 in FM by (field; lra).
    assert (DD : mod_k m (3 / 4) 200 * ((8 / 10 - 0) * mt_tau m + 0) = d). { unfold mod_k, d. rewrite MO, (Rabs_pos_eq 150) by lra. rewrite UD, (fa_gain _ _ _ _ F), (fa_tau _ _ _ _ F), EC. cbn [sc_ls sc_rs sc_p en_tau im_env]. unfold im_alpha. replace (2 * 2 - 1) with 3 by ring. fold al. fold k. ring. }
    rewrite DD in FM. rewrite np_clip_id in FM by lra. rewrite FM. rewrite Rmax_left by lra. unfold Rmin. destruct (Rle_dec _ _); lra. }
  apply S; [exists (im_x 0 0 0), oz; split; [exact EZ|rewrite FZ; apply F0]|exact NO|apply F0|].
  exists d. split; [|rewrite E; lra]. exists 10%nat, 11%nat, 7%nat, 0%nat, 0, 0, (3 / 4), 300, 300, 300, 200. repeat (split; [reflexivity|]). cbn zeta. fold al. fold k. cbn [en_tau im_env].
  replace (0 * 300 * (0 * 300) + 0 * 300 * (0 * 300)) with 0 by ring. rewrite sqrt_0. replace (Rabs (3 / 4) * 200) with 150 by (rewrite Rabs_pos_eq by lra; field). rewrite Rmax_left by lra. rewrite (Rabs_pos_eq 150) by lra. unfold d. field. lra.
Qed.

(** ** C169: the speed loop *)
Lemma make_over_length e ss l : make_over e ss = Ok l -> length l = length ss.
Proof. revert l. induction ss as [|s ss IH]; cbn; intros l H; [apply ok_inj in H; subst; reflexivity|]. ub6 H. apply ok_inj in H. subst l. cbn. f_equal. apply IH. reflexivity. Qed.
Lemma imc_new_sl e ss0 ss1 refs dec c s0 : imc_new e ss0 ss1 refs dec = Ok (c, s0) -> has "omega" refs = true -> exists isq isd tq om, str_index "torque" (en_names e) = Ok tq /\ str_index "omega" (en_names e) = Ok om /\
  cp_sl c = {| sl_rsi := [isq; isd; tq; om]; sl_low := en_low e; sl_high := en_high e; sl_lim := en_limits e; sl_nom := en_nominal e |} /\ length (cs_over s0) = length ss1.
Proof.
  intros N O. unfold imc_new in N. destruct (en_space e) as [low high| |]; try discriminate. assert (T : torque_mode refs = true) by (unfold torque_mode; rewrite O; apply Bool.orb_true_r). rewrite O in N. ub6 N. apply ok_inj in N. pose proof (f_equal fst N) as Nc. pose proof (f_equal snd N) as Ns. cbn [fst snd] in Nc, Ns. subst c s0. cbn [cp_sl cs_over]. unfold mode_idx. rewrite T, O. cbn [app].
  do 4 eexists. split; [reflexivity|]. split; [reflexivity|]. split; [reflexivity|]. eapply make_over_length. eassumption.
Qed.
(** With one overlaid stage, after any history: the torque reference is the stage's output on the
    speed error, which is integrated, if that lies within 85 per cent of the torque range and
    the stage is continuous; otherwise the output is clipped to nominal over limit torque and
    nothing is integrated. *)
Theorem imc_speed_loop :
  forall e ss0 st1 refs dec c s0 h s l x r s' a, imc_new e ss0 [st1] refs dec = Ok (c, s0) -> has "omega" refs = true -> imc_run c s0 h = Ok (Some (s, l)) -> imc_control c s x r = Ok (Some (s', a)) ->
  exists r0 rest b b' w y tq lo hi, r = r0 :: rest /\ cs_over s = [b] /\ cs_over s' = [b'] /\ value_of e "omega" x w /\ item (cs_ref s') 2 = Ok y /\
    str_index "torque" (en_names e) = Ok tq /\ item (en_low e) tq = Ok lo /\ item (en_high e) tq = Ok hi /\
    let y0 := snd (b_control b w r0) in
    ((85 / 100 * lo <= y0 <= 85 / 100 * hi /\ is_cont b = true /\ y = y0 /\ b_integrate (fst (b_control b w r0)) w r0 = Ok b') \/
     (~ (85 / 100 * lo <= y0 <= 85 / 100 * hi /\ is_cont b = true) /\ b' = fst (b_control b w r0) /\ exists n m, item (en_nominal e) tq = Ok n /\ item (en_limits e) tq = Ok m /\ y = np_clip y0 (n / m * lo) (n / m * hi))).
Proof.
  intros e ss0 st1 refs dec c s0 h s l x r s' a N O H C. destruct (imc_new_sl _ _ _ _ _ _ _ N O) as (isq & isd & tq & om & T1 & W1 & SL & LO). cbn [length] in LO. destruct (imc_new_inv _ _ _ _ _ _ _ N) as (I0 & _ & _ & _ & _ & _ & _ & CT & CO & _). rewrite O in CO.
  destruct (imc_run_inv _ _ _ _ _ I0 H) as [[I1 L1] (_ & _ & _ & R4)]. assert (LB : length (cs_over s) = 1%nat) by (rewrite <- LO; rewrite <- (map_length b_reset (cs_over s)), <- (map_length b_reset (cs_over s0)), R4; reflexivity).
  destruct (cs_over s) as [|b [|]] eqn:EB; try discriminate LB. unfold imc_control in C. destruct (fb_estimate (cp_fb c) (cs_flux s) (map2 Rmult x (cp_limits c))) as [f|]; [|discriminate]. cbn [bind] in C. rewrite CO, EB in C. destruct r as [|r0 rest]; [discriminate C|].
  destruct (sl_refs (cp_sl c) true x (r0 :: rest) ([b], cs_ref s)) as [[bs ref']|] eqn:ES; [|discriminate]. cbn [bind fst snd] in C. assert (LR : length (cs_ref s) = 4%nat) by (rewrite <- L1, SL; reflexivity).
  destruct (sl_one _ _ _ _ _ _ _ _ LR ES) as (si & sj & w & lo & hi & b' & A1 & A2 & A3 & A4 & A5 & -> & Y). rewrite SL in A1, A2, A4, A5, Y. cbn in A1, A2. apply ok_inj in A1, A2. subst si sj. cbn [sl_low sl_high sl_nom sl_lim] in A4, A5, Y.
  destruct (imc_torque c (cs_t s) x ref' (fst (snd f))) as [t|]; [|discriminate]. cbn [bind] in C. destruct (fst (snd t)) as [rq|]; [|discriminate]. destruct (imc_voltage c (cs_d s) (cs_q s) x rq (snd (snd t)) (fst (snd f)) (snd (snd f))) as [v|]; [|discriminate]. cbn [bind] in C. apply ok_inj in C. apply some_inj in C. apply (f_equal fst) in C. cbn [fst] in C. subst s'. cbn [cs_over cs_ref].
  assert (Y2 : exists y, item (list_set 1 (snd (snd t)) (list_set 0 rq ref')) 2 = Ok y /\ let y0 := snd (b_control b w r0) in
    ((85 / 100 * lo <= y0 <= 85 / 100 * hi /\ is_cont b = true /\ y = y0 /\ b_integrate (fst (b_control b w r0)) w r0 = Ok b') \/
     (~ (85 / 100 * lo <= y0 <= 85 / 100 * hi /\ is_cont b = true) /\ b' = fst (b_control b w r0) /\ exists n m, item (en_nominal e) tq = Ok n /\ item (en_limits e) tq = Ok m /\ y = np_clip y0 (n / m * lo) (n / m * hi)))).
  { destruct (cs_ref s) as [|a0 [|a1 [|a2 [|a3 [|]]]]]; try discriminate LR. cbn zeta in Y. destruct Y as [(Y1 & Y2 & Y3 & ->)|(Y1 & Y2 & n & m & Y3 & Y4 & ->)]; cbn [list_set item nth_error]; eexists; (split; [reflexivity|]); [left|right].
    - repeat split; try assumption; apply Y1.
    - split; [exact Y1|]. split; [exact Y2|]. exists n, m. repeat split; assumption. }
  destruct Y2 as (y & Y2 & Y3). exists r0, rest, b, b', w, y, tq, lo, hi. split; [reflexivity|]. split; [reflexivity|]. split; [reflexivity|]. split; [exists om; split; assumption|]. split; [exact Y2|]. split; [exact T1|]. split; [exact A4|]. split; [exact A5|exact Y3].
Qed.
Print Assumptions imc_speed_loop.
(** So the torque reference stays within 85 per cent or nominal over limit torque. *)
Theorem imc_speed_loop_bounded :
  forall e ss0 st1 refs dec c s0 h s l x r s' a m n, imc_new e ss0 [st1] refs dec = Ok (c, s0) -> has "omega" refs = true -> imc_run c s0 h = Ok (Some (s, l)) -> imc_control c s x r = Ok (Some (s', a)) ->
  quantity e "torque" m n -> 0 < m -> 0 <= n -> (forall j, str_index "torque" (en_names e) = Ok j -> item (en_low e) j = Ok (-1) /\ item (en_high e) j = Ok 1) ->
  exists y, item (cs_ref s') 2 = Ok y /\ Rabs y <= Rmax (85 / 100) (n / m).
Proof.
  intros e ss0 st1 refs dec c s0 h s l x r s' a m n N O H C (j & Q1 & Q2 & Q3) M0 N0 B. destruct (imc_speed_loop _ _ _ _ _ _ _ _ _ _ _ _ _ _ N O H C) as (r0 & rest & b & b' & w & y & tq & lo & hi & _ & _ & _ & _ & Y & T & L1 & L2 & D). exists y. split; [exact Y|].
  destruct (B tq T) as [B1 B2]. assert (lo = -1) by congruence. assert (hi = 1) by congruence. subst lo hi. cbn zeta in D. destruct D as [(D & _ & -> & _)|(_ & _ & n' & m' & N1 & M1 & ->)].
  - eapply Rle_trans; [|apply Rmax_l]. apply Rabs_le. lra.
  - assert (tq = j) by congruence. subst tq. assert (n' = n) by congruence. assert (m' = m) by congruence. subst n' m'. eapply Rle_trans; [|apply Rmax_r]. assert (P : 0 <= n / m) by (apply Rmult_le_pos; [lra|left; apply Rinv_0_lt_compat; lra]). apply Rabs_le. pose proof (np_clip_both (snd (b_control b w r0)) (n / m * -1) (n / m * 1) ltac:(lra)). lra.
Qed.
Print Assumptions imc_speed_loop_bounded.
(** Torque control of the whole controller, after any history: the torque reference is
    normalised by the torque limit, and the torque current demanded is the best for it at the flux
    that the observer now shows. *)
Theorem imc_torque_demand :
  forall e sd sq ss1 refs dec c s0 p lm lsr lss rr rs ld lq tl n un wn h s l x r0 rest s' a, im_drive e p lm lsr lss rr rs ld lq tl n un wn -> imc_new e [sd; sq] ss1 refs dec = Ok (c, s0) -> has "torque" refs = true -> has "omega" refs = false ->
  imc_run c s0 h = Ok (Some (s, l)) -> imc_control c s x (r0 :: rest) = Ok (Some (s', a)) ->
  exists d v tmax, cs_ref s' = [v / lq; d; r0] /\ Rabs (d * ld) <= 9 / 10 * n /\ 0 <= tmax /\
    let psi := sqrt (fst (cs_flux s') * fst (cs_flux s') + snd (cs_flux s') * snd (cs_flux s')) in
    best_q p lm (lm + lsr) (Rmax psi (1 / 1000)) (r0 * tl) tmax n (d * ld) v.
Proof.
  intros e sd sq ss1 refs dec c s0 p lm lsr lss rr rs ld lq tl n un wn h s l x r0 rest s' a D N T O H C. destruct (imc_new_inv _ _ _ _ _ _ _ N) as (I0 & _ & _ & _ & _ & _ & _ & CT & CO & _). rewrite O in CO. assert (TM : torque_mode refs = true) by (unfold torque_mode; rewrite T; reflexivity). rewrite TM in CT.
  destruct (imc_run_inv _ _ _ _ _ I0 H) as [[I1 L1] _]. rewrite CT, CO in I1. destruct I1 as (LR & _). cbn in LR.
  assert (M : exists m t0 jt, imt_new e sq = Ok (m, t0) /\ cp_t c = Some m /\ str_index "torque" (en_names e) = Ok jt /\ cp_tq c = jt /\ cp_limits c = en_limits e).
  { clear H C I0 LR L1 CT CO D. unfold imc_new in N. destruct (en_space e) as [low high| |]; try discriminate. rewrite TM, O in N. change (at_ [sd; sq] 1) with (@Ok stage sq) in N. cbn [bind] in N. destruct (imt_new e sq) as [[m t0]|] eqn:Em; cbn [bind fst snd] in N.
    - ub6 N. apply ok_inj in N. apply (f_equal fst) in N. cbn [fst] in N. subst c. cbn [cp_t cp_tq cp_limits]. exists m, t0. eexists. repeat split; try reflexivity; assumption.
    - exfalso. ub6 N. discriminate. }
  destruct M as (m & t0 & jt & M1 & M2 & M3 & M4 & M5). pose proof (imt_new_facts _ _ _ _ M1) as F.
  unfold imc_control in C. destruct (fb_estimate (cp_fb c) (cs_flux s) (map2 Rmult x (cp_limits c))) as [f|] eqn:Ef; [|discriminate]. cbn [bind] in C. rewrite CO in C. destruct (cs_ref s) as [|a0 [|a1 [|a2 [|]]]]; try discriminate LR. unfold sl_refs in C. cbn [item nth_error bind fst snd set_back length Nat.ltb Nat.leb Nat.sub list_set] in C.
  unfold imc_torque in C. rewrite CT, M2 in C. destruct (cs_t s) as [ts|]; [|discriminate]. cbn [item nth_error bind] in C. rewrite M4, M5 in C.
  assert (TL : item (en_limits e) jt = Ok tl). { destruct D as (_ & _ & _ & _ & _ & _ & _ & _ & _ & _ & _ & _ & _ & _ & _ & _ & _ & _ & (nt & j & B1 & B2 & _) & _). congruence. } fold (item (en_limits e) jt) in C. rewrite TL in C. cbn [bind] in C.
  destruct (imt_control m ts x (r0 * tl) (fst (snd f))) as [[ts' [[q d] fl]]|] eqn:EC; [|discriminate]. cbn [bind fst snd] in C. destruct q as [rq|]; [|discriminate].
  match type of C with bind ?vv _ = _ => destruct vv as [vo|]; [|discriminate] end. cbn [bind] in C. apply ok_inj in C. apply some_inj in C. apply (f_equal fst) in C. cbn [fst] in C. subst s'. cbn [cs_ref cs_flux list_set].
  destruct (dr_call _ _ _ _ _ _ _ _ _ _ _ _ _ _ _ _ F D _ _ _ _ _ _ _ _ EC) as (_ & Bd & _ & psi' & P1 & _ & [[_ Z]|(Q0 & v0 & Ev & BQ)]); [discriminate Z|]. apply some_inj in Ev. exists d, v0. eexists. split; [rewrite Ev; reflexivity|]. split; [exact Bd|].
  assert (EP : fst (snd f) = sqrt (fst (fst f) * fst (fst f) + snd (fst f) * snd (fst f))) by (unfold fb_estimate in Ef; ub6 Ef; apply ok_inj in Ef; subst f; reflexivity). cbn zeta. rewrite <- EP. split; [|exact BQ].
  destruct D as (_ & _ & _ & _ & _ & _ & Pp & Pm & Pr & _). unfold im_torque. apply Rmult_le_pos; [|apply sqrt_pos]. apply Rmult_le_pos; [|lra]. left. apply Rdiv_lt_0_compat; [|exact Pr]. apply Rmult_lt_0_compat; [lra|exact Pm].
Qed.
Print Assumptions imc_torque_demand.
(** Two or more overlaid stages can be configured, but then no call succeeds (neither here nor in the
    field oriented cascade of synchronous motors): the loop reads past the four states. *)
Theorem speed_loop_two_stages_refuted :
  (forall e ss0 ss1 refs dec c s0 h x r, imc_new e ss0 ss1 refs dec = Ok (c, s0) -> has "omega" refs = true -> (2 <= length ss1)%nat -> forall o, imc_run c s0 (ResetIt :: h ++ [Control x r]) <> Ok o) /\
  (forall T (conv : T -> list R -> R -> res (T * (R * R))) l torque tq rd_idx f ts cs over ref state r rest, length (sl_rsi l) = 4%nat -> length ref = 4%nat -> (2 <= length over)%nat ->
   cfoc_control conv l torque true tq rd_idx f ts cs (over, ref) state (r :: rest) = Err IndexError).
Proof.
  split.
  - intros e ss0 ss1 refs dec c s0 h x r N O LS o. destruct (imc_new_sl _ _ _ _ _ _ _ N O) as (isq & isd & tq & om & T1 & W1 & SL & LO). destruct (imc_new_inv _ _ _ _ _ _ _ N) as (I0 & _ & _ & _ & _ & _ & _ & CT & CO & _). rewrite O in CO.
    assert (K : forall s y z, cinv c s -> length (cs_over s) = length ss1 -> forall v, imc_control c s y z <> Ok v).
    { intros s y z [I1 L1] LB v C. unfold imc_control in C. destruct (fb_estimate (cp_fb c) (cs_flux s) (map2 Rmult y (cp_limits c))) as [f|]; [|discriminate]. cbn [bind] in C. rewrite CO in C. destruct z as [|z0 z]; [discriminate C|]. rewrite sl_two in C; [discriminate|rewrite SL; reflexivity|cbn [snd]; rewrite <- L1, SL; reflexivity|cbn [fst]; lia|discriminate]. }
    assert (K2 : forall h s, cinv c s -> length (cs_over s) = length ss1 -> imc_run c s (h ++ [Control x r]) <> Ok o).
    { clear h. induction h as [|[y z|] h IH]; intros s I1 LB; cbn [app imc_run].
      - intros Q. destruct (imc_control c s x r) as [v|] eqn:E; [exact (K _ _ _ I1 LB _ E)|discriminate].
      - intros Q. destruct (imc_control c s y z) as [v|] eqn:E; [exact (K _ _ _ I1 LB _ E)|discriminate].
      - apply IH; [apply imc_reset_inv; exact I1|]. cbn. rewrite map_length. exact LB. }
    cbn [imc_run]. apply K2; [apply imc_reset_inv; exact I0|cbn; rewrite map_length; exact LO].
  - intros T conv l torque tq rd_idx f ts cs over ref state r rest L1 L2 L3. unfold cfoc_control. rewrite sl_two; [reflexivity|exact L1|exact L2|exact L3|discriminate].
Qed.
Print Assumptions speed_loop_two_stages_refuted.

(** ** C170: current control *)
(** Without torque and speed among the references the torque current is always controlled to
    zero and the flux current to the first reference, whichever quantity that belongs to; the
    other references have no influence. *)
Theorem imc_current_mode_refuted :
  forall e ss0 ss1 refs dec c s0 h s l x r0 rest, torque_mode refs = false -> imc_new e ss0 ss1 refs dec = Ok (c, s0) -> imc_run c s0 h = Ok (Some (s, l)) ->
  imc_control c s x (r0 :: rest) = imc_control c s x [r0] /\ forall s' a, imc_control c s x (r0 :: rest) = Ok (Some (s', a)) -> cs_ref s' = [0; r0].
Proof.
  intros e ss0 ss1 refs dec c s0 h s l x r0 rest T N H. destruct (imc_new_inv _ _ _ _ _ _ _ N) as (I0 & _ & _ & _ & _ & _ & _ & CT & CO & _). destruct (imc_run_inv _ _ _ _ _ I0 H) as [I1 _]. rewrite T in CT. split.
  - unfold imc_control. destruct (fb_estimate (cp_fb c) (cs_flux s) (map2 Rmult x (cp_limits c))) as [f|]; reflexivity.
  - intros s' a C. destruct (imc_current _ _ _ _ I1 CT _ _ C) as (r & E & ->). cbn in E. apply ok_inj in E. subst r. reflexivity.
Qed.
Print Assumptions imc_current_mode_refuted.
(** The cascade of synchronous motors reads the flux current reference properly but the torque
    current is controlled to zero there, too. *)
Theorem cfoc_current_mode_refuted :
  forall T (conv : T -> list R -> R -> res (T * (R * R))) l tq rd_idx f ts cs over b state reference o, cfoc_control conv l false false tq rd_idx f ts cs (over, [0; b]) state reference = Ok o ->
  exists r0 rd v, item reference 0 = Ok r0 /\ item reference rd_idx = Ok rd /\ cfoc_cont f cs state rd 0 = Ok v /\ o = (ts, fst v, (over, [0; r0]), snd v).
Proof.
  intros T conv l tq rd_idx f ts cs over b state reference o H. unfold cfoc_control, sl_refs in H. destruct (item reference 0) as [r0|] eqn:E0; [|discriminate]. cbn in H. destruct (item reference rd_idx) as [rd|] eqn:E1; [|discriminate]. cbn [bind] in H. destruct (cfoc_cont f cs state rd 0) as [v|] eqn:E2; [|discriminate]. cbn in H. apply ok_inj in H. subst o. exists r0, rd, v. split; [reflexivity|]. split; [reflexivity|]. split; [exact E2|reflexivity].
Qed.
Print Assumptions cfoc_current_mode_refuted.
(** With a torque reference the cascade hands the demanded torque (in newton metres) to the
    conversion and controls the currents to the pair it answers. *)
Theorem cfoc_torque_mode :
  forall T (conv : T -> list R -> R -> res (T * (R * R))) l tq rd_idx f ts cs over a b c state reference o, cfoc_control conv l true false tq rd_idx f ts cs (over, [a; b; c]) state reference = Ok o ->
  exists r0 lim ts' iq id v, item reference 0 = Ok r0 /\ item (fo_limit f) tq = Ok lim /\ conv ts state (r0 * lim) = Ok (ts', (iq, id)) /\ cfoc_cont f cs state id iq = Ok v /\ o = (ts', fst v, (over, [iq; id; r0]), snd v).
Proof.
  intros T conv l tq rd_idx f ts cs over a b c state reference o H. unfold cfoc_control, sl_refs in H. destruct (item reference 0) as [r0|] eqn:E0; [|discriminate]. cbn in H. destruct (item (fo_limit f) tq) as [lim|] eqn:E1; [|discriminate]. cbn [bind] in H. destruct (conv ts state (r0 * lim)) as [[ts' [iq id]]|] eqn:E2; [|discriminate]. cbn in H.
  destruct (cfoc_cont f cs state id iq) as [v|] eqn:E3; [|discriminate]. cbn in H. apply ok_inj in H. subst o. exists r0, lim, ts', iq, id, v. split; [reflexivity|]. split; [reflexivity|]. split; [exact E2|]. split; [exact E3|reflexivity].
Qed.
Print Assumptions cfoc_torque_mode.

(** ** C171: from voltages to the action *)
(** Every action lies in the action space.  With PI controllers, the action makes the demanded
    dq voltages (decoupling plus controllers) and the controllers integrate, or it does not
    and they do not. *)
Theorem imc_action_integrates :
  forall c L pd pq x rq rd psi an d' q' act, standard_box c L -> imc_voltage c (BPi pd) (BPi pq) x rq rd psi an = Ok (d', q', act) ->
  exists w isd isq ld lq, item (map2 Rmult x (cp_limits c)) (cp_om c) = Ok w /\ item (map2 Rmult x (cp_limits c)) (cp_isd c) = Ok isd /\ item (map2 Rmult x (cp_limits c)) (cp_isq c) = Ok isq /\
    item (cp_limits c) (cp_isd c) = Ok ld /\ item (cp_limits c) (cp_isq c) = Ok lq /\
    let ws := if_omega_s (cp_f c) w isq psi in
    let ud := (if cp_dec c then if_usd0 (cp_f c) ws isq psi else 0) + pi_control pd isd (rd * ld) in
    let uq := (if cp_dec c then if_usq0 (cp_f c) ws w isd psi else 0) + pi_control pq isq (rq * lq) in
    box_action act /\
    ((makes L act an ud uq /\ d' = BPi (pi_integrate pd isd (rd * ld)) /\ q' = BPi (pi_integrate pq isq (rq * lq))) \/
     (~ makes L act an ud uq /\ d' = BPi pd /\ q' = BPi pq)).
Proof. intros c L pd pq x rq rd psi an d' q' act S H. exact (imc_voltage_law _ _ _ _ _ _ _ _ _ _ _ _ S H). Qed.
Print Assumptions imc_action_integrates.
(** The voltage of the converter is not used up: at every angle there are voltages that an
    action would make but the controller's action does not. *)
Theorem imc_voltage_range_refuted :
  forall c L angle u, standard_box c L -> L < u <= 4 / 3 * L -> let ud := u * cos angle in let uq := - u * sin angle in
  (exists act, box_action act /\ makes L act angle ud uq) /\ forall act ok, imc_action c ud uq angle = Ok (act, ok) -> ok = false /\ ~ makes L act angle ud uq.
Proof.
  intros c L angle u S U ud uq. pose proof S as (_ & _ & _ & P). pose proof (sincos2 angle) as SC.
  assert (B : backward ud uq angle = Ok [u; - (u / 2); - (u / 2)]).
  { unfold backward, q. cbn. unfold ud, uq. set (co := cos angle) in *. set (si := sin angle) in *. clearbody co si. assert (A1 : co * (u * co) - si * (- u * si) = u) by (transitivity (u * (si * si + co * co)); [ring|rewrite SC; ring]). assert (A2 : si * (u * co) + co * (- u * si) = 0) by ring.
    f_equal. f_equal; [|f_equal; [|f_equal]].
    - transitivity (co * (u * co) - si * (- u * si)); [field|exact A1].
    - transitivity (- (1 / 2) * (co * (u * co) - si * (- u * si)) + sqrt 3 / 2 * (si * (u * co) + co * (- u * si))); [field|rewrite A1, A2; field].
    - transitivity (- (1 / 2) * (co * (u * co) - si * (- u * si)) - sqrt 3 / 2 * (si * (u * co) + co * (- u * si))); [field|rewrite A1, A2; field]. }
  split.
  - exists (map (fun z => (z - u / 4) / L) [u; - (u / 2); - (u / 2)]). assert (I : 0 < / L) by (apply Rinv_0_lt_compat; exact P).
    assert (K : forall z, - L <= z <= L -> -1 <= z / L <= 1). { intros z Z. assert (X : L * (z / L) = z) by (field; lra). split; apply Rmult_le_reg_l with L; lra. }
    split; [split; [reflexivity|]; cbn [map]; repeat (constructor; [apply K; lra|]); constructor|]. unfold makes. rewrite map_map. rewrite <- (backward_offset ud uq angle (u / 4) _ B). f_equal. apply map_ext. intros z. field. lra.
  - intros act ok H. destruct (imc_action_spec _ _ _ _ _ _ _ S H) as (a & b & d & B' & _ & _ & OK). rewrite B in B'. apply ok_inj in B'. injection B' as <- <- <-.
    assert (Z : ok = false). { destruct ok; [|reflexivity]. exfalso. pose proof (proj1 OK eq_refl) as Q. apply Forall_inv in Q. lra. }
    split; [exact Z|]. intros M. destruct (imc_action_makes _ _ _ _ _ _ _ S H) as [_ MK]. apply MK in M. congruence.
Qed.
Print Assumptions imc_voltage_range_refuted.

(** ** Examples *)
Definition im_pi : pi := {| pi_p := 10; pi_i := 100; pi_tau := 1 / 10000; pi_int := 0 |}.
Lemma imc_ex_new refs m s0 : imt_new (im_env 100) im_stage = Ok (m, s0) -> refs = ["omega"] \/ refs = ["torque"] \/ refs = ["i_sq"] -> exists c s, imc_new (im_env 100) [im_stage; im_stage] [im_stage] refs true = Ok (c, s) /\ standard_box c 300 /\
  cp_limits c = en_limits (im_env 100) /\ cp_u c = [7; 8; 9]%nat /\ cp_om c = 0%nat /\ cp_isd c = 5%nat /\ cp_isq c = 6%nat /\ cp_tq c = 1%nat /\ fb_i (cp_fb c) = [2; 3; 4]%nat /\ fb_omega (cp_fb c) = 0%nat /\ cs_d s = BPi im_pi /\ cs_q s = BPi im_pi /\
  (torque_mode refs = true -> cp_t c = Some m /\ cs_t s = Some s0 /\ cp_torque c = true) /\ (torque_mode refs = false -> cp_torque c = false) /\ cp_omega c = has "omega" refs /\
  (has "omega" refs = true -> cs_over s = [BPi im_pi] /\ cs_ref s = [0; 0; 0; 0] /\ cp_sl c = {| sl_rsi := [6; 5; 1; 0]%nat; sl_low := en_low (im_env 100); sl_high := en_high (im_env 100); sl_lim := en_limits (im_env 100); sl_nom := en_nominal (im_env 100) |}) /\
  (torque_mode refs = false -> cs_ref s = [0; 0] /\ cs_over s = []).
Proof.
  intros N [->|[->| ->]]; unfold imc_new; cbn -[imt_new im_env im_stage]; unfold dict_item; cbn -[imt_new]; fold im_stage; try (change {| en_names := im_names; en_low := _; en_high := _; en_limits := _; en_nominal := _; en_cur := _; en_volt := _; en_space := _; en_mp := _; en_extex := _; en_tau := _ |} with (im_env 100)); try (rewrite N; cbn [bind fst snd]);
    do 2 eexists; (split; [reflexivity|]); cbn; unfold standard_box; cbn; repeat split; try reflexivity; try discriminate; try lra.
Qed.
Lemma imc_ex_voltage c pd pq w u1 u2 rq rd psi an : standard_box c 300 -> cp_limits c = en_limits (im_env 100) -> cp_om c = 0%nat -> cp_isd c = 5%nat -> cp_isq c = 6%nat -> exists v, imc_voltage c (BPi pd) (BPi pq) (im_x w u1 u2) rq rd psi an = Ok v.
Proof.
  intros (S1 & S2 & S3 & _) L O D Q. unfold imc_voltage. rewrite L, O, D, Q. cbn [im_x im_env en_limits repeat app map2 item nth_error bind b_control fst snd].
  match goal with |- context [imc_action c ?a ?b an] => assert (A : exists z, imc_action c a b an = Ok z) by (unfold imc_action; change (dq_to_abc [a; b] an false) with (backward a b an); destruct (backward_ok a b an) as (raw & Er); pose proof (backward_length _ _ _ _ Er) as Lr; rewrite Er; destruct raw as [|? [|? [|? [|]]]]; try discriminate Lr; cbn [bind]; rewrite S3; cbn [bind map2 length]; rewrite ?S1, ?S2; eexists; reflexivity) end.
  destruct A as (z & A). rewrite A. cbn [bind]. destruct (snd z); eexists; reflexivity.
Qed.
Lemma imc_ex_fb c p x w u1 u2 : cp_limits c = en_limits (im_env 100) -> fb_i (cp_fb c) = [2; 3; 4]%nat -> fb_omega (cp_fb c) = 0%nat -> x = im_x w u1 u2 -> exists f, fb_estimate (cp_fb c) p (map2 Rmult x (cp_limits c)) = Ok f.
Proof. intros L I0 O ->. unfold fb_estimate. rewrite L, I0, O. eexists. cbn. reflexivity. Qed.
(** Speed control of the drive with one stage: a call, a reset and another call succeed.  Also
    current control. *)
Example imc_example : exists m s0 c s s1 a1, imt_new (im_env 100) im_stage = Ok (m, s0) /\ imc_new (im_env 100) [im_stage; im_stage] [im_stage] ["omega"] true = Ok (c, s) /\ standard_box c 300 /\
  imc_run c s [Control (im_x (1 / 4) 0 0) [1 / 2]; ResetIt] = Ok (Some (s1, [a1])) /\ (exists s2 a2, imc_control c s1 (im_x (1 / 4) 0 0) [1 / 3] = Ok (Some (s2, a2))) /\
  has "omega" ["omega"] = true.
Proof.
  destruct (im_env_new 100 ltac:(lra)) as (m & s0 & N & _). destruct (imc_ex_new ["omega"] m s0 N ltac:(auto)) as (c & s & C & S & L & _ & O & D & Q & TQ & FI & FO & CD & CQ & T & _ & OM & V & _). destruct (T eq_refl) as (T1 & T2 & T3). destruct (V eq_refl) as (V1 & V2 & V3). clear T V.
  exists m, s0, c, s.
  assert (STEP : forall sx r ts p0 pd pq ref, length ref = 4%nat -> cs_over sx = [BPi p0] -> cs_t sx = Some ts -> cs_d sx = BPi pd -> cs_q sx = BPi pq -> cs_ref sx = ref ->
    exists s' a p0' pd' pq' ts', imc_control c sx (im_x (1 / 4) 0 0) [r] = Ok (Some (s', a)) /\ length (cs_ref s') = 4%nat /\ cs_over s' = [BPi p0'] /\ cs_t s' = Some ts' /\ cs_d s' = BPi pd' /\ cs_q s' = BPi pq').
  { intros sx r ts p0 pd pq ref LR H1 H2 H3 H4 H5. unfold imc_control. destruct (imc_ex_fb c (cs_flux sx) _ (1 / 4) 0 0 L FI FO eq_refl) as (f & Ef). rewrite Ef. cbn [bind]. rewrite OM, V3, H1, H5. change (has "omega" ["omega"]) with true.
    destruct ref as [|a0 [|a1 [|a2 [|a3 [|]]]]]; try discriminate LR.
    assert (SL : exists p1 y, sl_refs {| sl_rsi := [6; 5; 1; 0]%nat; sl_low := en_low (im_env 100); sl_high := en_high (im_env 100); sl_lim := en_limits (im_env 100); sl_nom := en_nominal (im_env 100) |} true (im_x (1 / 4) 0 0) [r] ([BPi p0], [a0; a1; a2; a3]) = Ok ([BPi p1], [a0; a1; y; r])).
    { unfold sl_refs. cbn [item nth_error bind snd fst length set_back Nat.ltb Nat.leb Nat.sub list_set sl_range seq rev app sl_loop]. unfold sl_stage. cbn [fst snd Nat.sub at_ nth_error bind sl_rsi item im_x app b_control is_cont sl_low sl_high sl_nom sl_lim im_env en_low en_high en_nominal en_limits]. match goal with |- context [if ?b then _ else _] => destruct b end; cbn; do 2 eexists; reflexivity. }
    destruct SL as (p1 & y & SL). rewrite SL. cbn [bind fst snd]. unfold imc_torque. rewrite T3, T1, H2, L, TQ. cbn [item nth_error bind im_env en_limits].
    destruct (im_env_call 100 m s0 ts 0 0 (1 / 4) (repeat 0 9) (y * 40) (fst (snd f)) ltac:(lra) N eq_refl) as ([ts' [[q d] fl]] & E). pose proof (imt_new_facts _ _ _ _ N) as F. pose proof (im_env_drive 100 ltac:(lra)) as Dr.
    destruct (dr_call _ _ _ _ _ _ _ _ _ _ _ _ _ _ _ _ F Dr _ _ _ _ _ _ _ _ E) as (_ & _ & Fb & psi' & P1 & _ & Z).
    assert (PL : mt_psimax m <= 14375 / 100000 * 10) by exact (dr_psimax_le _ _ _ _ _ _ _ _ _ _ _ _ _ _ _ _ F Dr).
    destruct Z as [[Z _]|(_ & v & -> & _)]. { exfalso. unfold q_room in Z. assert (X : 0 <= psi' / (14375 / 100000) <= 10) by (replace (psi' / (14375 / 100000)) with (psi' * (100000 / 14375)) by field; lra). assert (X2 : psi' / (14375 / 100000) * (psi' / (14375 / 100000)) <= 10 * 10) by (apply Rmult_le_compat; lra). lra. }
    unfold im_x. rewrite E. cbn [bind fst snd]. rewrite H3, H4. destruct (imc_ex_voltage c pd pq (1 / 4) 0 0 (v / 10) d (fst (snd f)) (snd (snd f)) S L O D Q) as ([[d' q'] act] & EV). unfold im_x in EV. rewrite EV. cbn [bind fst snd].
    assert (BP : exists pd' pq', d' = BPi pd' /\ q' = BPi pq') by (destruct (imc_voltage_law _ _ _ _ _ _ _ _ _ _ _ _ S EV) as (? & ? & ? & ? & ? & _ & _ & _ & _ & _ & _ & [(_ & -> & ->)|(_ & -> & ->)]); do 2 eexists; split; reflexivity). destruct BP as (pd' & pq' & -> & ->).
    do 6 eexists. split; [reflexivity|]. repeat split; reflexivity. }
  destruct (STEP s (1 / 2) s0 im_pi im_pi im_pi [0; 0; 0; 0] eq_refl V1 T2 CD CQ V2) as (s1 & a1 & p0 & pd & pq & ts & E1 & B1 & B2 & B3 & B4 & B5). exists (imc_reset s1), a1. split; [exact N|]. split; [exact C|]. split; [exact S|]. split; [cbn [imc_run]; rewrite E1; reflexivity|]. split; [|reflexivity].
  destruct (STEP (imc_reset s1) (1 / 3) (imt_reset ts) (pi_reset p0) (pi_reset pd) (pi_reset pq) (cs_ref s1) B1) as (s2 & a2 & _ & _ & _ & _ & E2 & _); [cbn; rewrite B2; reflexivity|cbn; rewrite B3; reflexivity|cbn; rewrite B4; reflexivity|cbn; rewrite B5; reflexivity|reflexivity|]. exists s2, a2. exact E2.
Qed.
Example imc_torque_example : exists c s s1 a1, imc_new (im_env 100) [im_stage; im_stage] [im_stage] ["torque"] true = Ok (c, s) /\ imc_run c s [] = Ok (Some (s, [])) /\ imc_control c s (im_x (1 / 4) 0 0) [1 / 2] = Ok (Some (s1, a1)).
Proof.
  destruct (im_env_new 100 ltac:(lra)) as (m & s0 & N & _). destruct (imc_ex_new ["torque"] m s0 N ltac:(auto)) as (c & s & C & S & L & _ & O & D & Q & TQ & FI & FO & CD & CQ & T & _ & OM & _ & _). destruct (T eq_refl) as (T1 & T2 & T3). clear T. destruct (imc_new_inv _ _ _ _ _ _ _ C) as (I0 & _). exists c, s.
  destruct I0 as [(LR & _) _]. rewrite T3, OM in LR. change (has "omega" ["torque"]) with false in *. cbn in LR.
  unfold imc_control. destruct (imc_ex_fb c (cs_flux s) _ (1 / 4) 0 0 L FI FO eq_refl) as (f & Ef). rewrite Ef. cbn [bind]. rewrite OM. destruct (cs_ref s) as [|a0 [|a1 [|a2 [|]]]]; try discriminate LR. unfold sl_refs. cbn [item nth_error bind snd fst length set_back Nat.ltb Nat.leb Nat.sub list_set].
  unfold imc_torque. rewrite T3, T1, T2, L, TQ. cbn [item nth_error bind im_env en_limits].
  destruct (im_env_call 100 m s0 s0 0 0 (1 / 4) (repeat 0 9) (1 / 2 * 40) (fst (snd f)) ltac:(lra) N eq_refl) as ([ts' [[q d] fl]] & E). pose proof (imt_new_facts _ _ _ _ N) as F. pose proof (im_env_drive 100 ltac:(lra)) as Dr.
  destruct (dr_call _ _ _ _ _ _ _ _ _ _ _ _ _ _ _ _ F Dr _ _ _ _ _ _ _ _ E) as (_ & _ & Fb & psi' & P1 & _ & Z).
  assert (PL : mt_psimax m <= 14375 / 100000 * 10) by exact (dr_psimax_le _ _ _ _ _ _ _ _ _ _ _ _ _ _ _ _ F Dr).
  destruct Z as [[Z _]|(_ & v & -> & _)]. { exfalso. unfold q_room in Z. assert (X : 0 <= psi' / (14375 / 100000) <= 10) by (replace (psi' / (14375 / 100000)) with (psi' * (100000 / 14375)) by field; lra). assert (X2 : psi' / (14375 / 100000) * (psi' / (14375 / 100000)) <= 10 * 10) by (apply Rmult_le_compat; lra). lra. }
  unfold im_x. rewrite E. cbn [bind fst snd]. rewrite CD, CQ. destruct (imc_ex_voltage c im_pi im_pi (1 / 4) 0 0 (v / 10) d (fst (snd f)) (snd (snd f)) S L O D Q) as ([[d' q'] act] & EV). unfold im_x in EV. rewrite EV. cbn [bind fst snd].
  do 2 eexists. split; [exact C|]. split; reflexivity.
Qed.
Example imc_current_example : exists c s s1 a1, torque_mode ["i_sq"] = false /\ imc_new (im_env 100) [im_stage; im_stage] [im_stage] ["i_sq"] true = Ok (c, s) /\ imc_run c s [Control (im_x (1 / 4) 0 0) [1 / 2]] = Ok (Some (s1, [a1])) /\ cs_ref s1 = [0; 1 / 2].
Proof.
  destruct (im_env_new 100 ltac:(lra)) as (m & s0 & N & _). destruct (imc_ex_new ["i_sq"] m s0 N ltac:(auto)) as (c & s & C & S & L & _ & O & D & Q & TQ & FI & FO & CD & CQ & _ & T & OM & _ & V). specialize (T eq_refl). destruct (V eq_refl) as (V1 & V2). exists c, s.
  assert (K : exists s1 a1, imc_control c s (im_x (1 / 4) 0 0) [1 / 2] = Ok (Some (s1, a1)) /\ cs_ref s1 = [0; 1 / 2]).
  { unfold imc_control. destruct (imc_ex_fb c (cs_flux s) _ (1 / 4) 0 0 L FI FO eq_refl) as (f & Ef). rewrite Ef. cbn [bind]. rewrite OM, V2, V1. unfold sl_refs. cbn [has existsb String.eqb item nth_error bind fst snd set_back length Nat.ltb Nat.leb Nat.sub list_set]. change (existsb (String.eqb "omega") ["i_sq"]) with false. cbn [bind fst snd]. unfold imc_torque. rewrite T. cbn [item nth_error bind fst snd].
    rewrite CD, CQ. destruct (imc_ex_voltage c im_pi im_pi (1 / 4) 0 0 0 (1 / 2) (fst (snd f)) (snd (snd f)) S L O D Q) as (v & EV). cbn -[imc_voltage im_x]. rewrite EV. cbn [bind]. do 2 eexists. split; reflexivity. }
  destruct K as (s1 & a1 & K1 & K2). exists s1, a1. split; [reflexivity|]. split; [exact C|]. split; [cbn [imc_run]; rewrite K1; reflexivity|exact K2].
Qed.
Example cfoc_current_example : exists o, cfoc_control (fun (t : unit) _ _ => Ok (t, (0, 0))) {| sl_rsi := [2; 1]%nat; sl_low := []; sl_high := []; sl_lim := []; sl_nom := [] |} false false 0 1 ex_foc tt (BPi im_pi, BPi im_pi) ([], [0; 0]) [0; 0; 1 / 2; 1 / 2; -1; 0] [1 / 2; 1 / 3] = Ok o.
Proof.
  unfold cfoc_control. cbn [sl_refs item nth_error bind fst snd set_back length Nat.ltb Nat.leb Nat.sub list_set]. unfold cfoc_cont, foc_cont. cbn -[foc_action]. match goal with |- context [foc_action ?f ?a ?b ?e] => assert (A : exists z, foc_action f a b e = Ok z) by (unfold foc_action; destruct (backward_ok a b e) as (raw & E); rewrite E; pose proof (backward_length _ _ _ _ E) as L; destruct raw as [|? [|? [|? [|]]]]; try discriminate L; eexists; reflexivity) end.
  destruct A as (z & A). rewrite A. cbn. destruct (snd z); eexists; reflexivity.
Qed.
Example cfoc_torque_example : exists o, cfoc_control (fun (t : unit) _ m => Ok (t, (m / 100, 1 / 4))) {| sl_rsi := [2; 1; 0]%nat; sl_low := []; sl_high := []; sl_lim := []; sl_nom := [] |} true false 0 1 ex_foc tt (BPi im_pi, BPi im_pi) ([], [0; 0; 0]) [0; 0; 1 / 2; 1 / 2; -1; 0] [1 / 2] = Ok o.
Proof.
  unfold cfoc_control. cbn -[cfoc_cont]. unfold cfoc_cont, foc_cont. cbn -[foc_action]. match goal with |- context [foc_action ?f ?a ?b ?e] => assert (A : exists z, foc_action f a b e = Ok z) by (unfold foc_action; destruct (backward_ok a b e) as (raw & E); rewrite E; pose proof (backward_length _ _ _ _ E) as L; destruct raw as [|? [|? [|? [|]]]]; try discriminate L; eexists; reflexivity) end.
  destruct A as (z & A). rewrite A. cbn. destruct (snd z); eexists; reflexivity.
Qed.
Example two_stages_example : exists c s, imc_new (im_env 100) [im_stage; im_stage] [im_stage; im_stage] ["omega"] true = Ok (c, s).
Proof.
  destruct (im_env_new 100 ltac:(lra)) as (m & s0 & N & _). unfold imc_new; cbn -[imt_new im_env im_stage]; unfold dict_item; cbn -[imt_new]. fold im_stage. change {| en_names := im_names; en_low := _; en_high := _; en_limits := _; en_nominal := _; en_cur := _; en_volt := _; en_space := _; en_mp := _; en_extex := _; en_tau := _ |} with (im_env 100). rewrite N. cbn [bind fst snd]. do 2 eexists. reflexivity.
Qed.
