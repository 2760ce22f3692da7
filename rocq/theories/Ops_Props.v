(** Operation point selection: DC motors (C113), modulation controller (C114), induction motor (C74). *)
From Verif Require Import PyBaseFacts PyDictFacts Transform_Model Transform_Proofs Motor_Model Conv_Model Wrap_Model Ctl_Model Ctl_Model2 Ctl_Spec Ctl_Proofs Ctl_Proofs2 Ctl_Props Emf_Props Ops_Model.
From Coq Require Import ZArith Lra Lia.
Local Open Scope string_scope. Local Open Scope list_scope. Local Open Scope R_scope.

(** ** C113 DC motors *)
(** PermExDc: the current always is torque / flux; the limit for the speed is never applied,
    since its resistance is an empty array (and where numpy has no truth value for an empty
    array the stage always raises). *)
Theorem permex_operating_point :
  forall e id o empty s w psi t, perm_tune perm_new e id = Ok o -> motor_type id = Ok "PermExDc" -> state_is e s "omega" w -> par_is e "psi_e" psi ->
  perm_select empty o s [t] = (match empty with Ok false => Ok [t / psi] | Ok true => Ok [] | Err x => Err x end).
Proof.
  intros e id o empty s w psi t H Hm (om & Eo & So) Pp. unfold perm_tune in H. rewrite Hm in H. cbn [bind] in H. apply bind_ok in H. destruct H as (fl & E1 & H). apply bind_ok in H. destruct H as (us & E2 & H). apply bind_ok in H. destruct H as (ui & E3 & H). apply bind_ok in H. destruct H as (v & E4 & H). rewrite Eo in H. cbn [bind] in H. injection H as <-.
  unfold read in E1. cbn in E1. unfold one, par in E1. unfold par_is in Pp. rewrite Pp in E1. cbn [bind] in E1. injection E1 as <-. injection E2 as <-.
  assert (Hv : exists x, v = [x]).
  { cbn [indices] in E3. apply bind_ok in E3. destruct E3 as (i & _ & E3). cbn [bind] in E3. injection E3 as <-. cbn [select] in E4. destruct (nth_error (ce_limits e) i) as [x|]; [|discriminate]. injection E4 as <-. exists x. reflexivity. }
  destruct Hv as (x & ->). unfold perm_select, perm_max. cbn [po_om po_flux po_volt po_res perm_new]. rewrite So. cbn [bind]. cbn. destruct (rlt 0 w); cbn; destruct empty as [[|]|er]; reflexivity.
Qed.
Print Assumptions permex_operating_point.
(** So the selected current gives the demanded torque, whatever the speed ... *)
Theorem permex_torque :
  forall m e id o s w i t, perm_tune perm_new e id = Ok o -> motor_type id = Ok "PermExDc" -> state_is e s "omega" w -> par_is e "psi_e" (pe_psi m) -> pe_psi m <> 0 ->
  perm_select (Ok false) o s [t] = Ok [i] -> perm_torque m [i] = Ok t.
Proof.
  intros m e id o s w i t H Hm So Pp Hp Hs. rewrite (permex_operating_point e id o (Ok false) s w (pe_psi m) t H Hm So Pp) in Hs. injection Hs as <-. cbn. f_equal. field. exact Hp.
Qed.
Print Assumptions permex_torque.
(** ... even where the voltage limit does not allow that current. *)
Theorem permex_speed_limit_refuted :
  forall e id o s w psi u, perm_tune perm_new e id = Ok o -> motor_type id = Ok "PermExDc" -> state_is e s "omega" w -> 0 < w -> par_is e "psi_e" psi -> 0 < psi -> 0 < u ->
  exists t i, perm_select (Ok false) o s [t] = Ok [i] /\ forall r, 0 <= r -> u / (r + psi * w) < i.
Proof.
  intros e id o s w psi u H Hm So Hw Pp Hp Hu. exists (psi * (2 * u / (psi * w))), (psi * (2 * u / (psi * w)) / psi). split; [exact (permex_operating_point e id o (Ok false) s w psi _ H Hm So Pp)|].
  intros r Hr. assert (Hpw : 0 < psi * w) by (apply Rmult_lt_0_compat; assumption). replace (psi * (2 * u / (psi * w)) / psi) with (2 * (u / (psi * w))) by (field; lra).
  assert (A : 0 < u / (psi * w)) by (apply Rdiv_lt_0_compat; lra). assert (B : u / (r + psi * w) <= u / (psi * w)). { unfold Rdiv. apply Rmult_le_compat_l; [lra|]. apply Rinv_le_contravar; lra. } lra.
Qed.
Print Assumptions permex_speed_limit_refuted.
Example permex_operating_point_example : exists o, perm_tune perm_new dc_env "Cont-TC-PermExDc-v0" = Ok o /\ motor_type "Cont-TC-PermExDc-v0" = Ok "PermExDc" /\ state_is dc_env [100; 0; 10; 0; 60] "omega" 100 /\ par_is dc_env "psi_e" (1 / 5).
Proof. eexists. split; [reflexivity|]. split; [reflexivity|]. split; [eexists; split; reflexivity|reflexivity]. Qed.

(** SeriesDc: the demanded torque for torques of at least 0, nan for every negative one. *)
Theorem series_operating_point :
  forall m e id l s, series_tune e id = Ok l -> motor_type id = Ok "SeriesDc" -> par_is e "l_e_prime" (dc_lep m) -> 0 < dc_lep m ->
  (0 <= s -> exists i, series_select l [s] = Ok [Some i] /\ 0 <= i /\ series_torque m [i] = Ok s) /\
  (s < 0 -> series_select l [s] = Ok [None]).
Proof.
  intros m e id l s H Hm Pl Hl. unfold series_tune in H. rewrite Hm in H. cbn [bind] in H. unfold read in H. cbn in H. unfold one, par in H. unfold par_is in Pl. rewrite Pl in H. cbn [bind] in H. injection H as <-.
  unfold series_select. cbn. unfold np_sqrt. split; intros Hs.
  - assert (Hd : 0 <= s / dc_lep m) by (apply Rmult_le_pos; [lra|left; apply Rinv_0_lt_compat; lra]). destruct (rltP (s / dc_lep m) 0) as [X|X]; [lra|]. exists (sqrt (s / dc_lep m)). split; [reflexivity|]. split; [apply sqrt_pos|]. cbn. f_equal.
    replace (dc_lep m * sqrt (s / dc_lep m) * sqrt (s / dc_lep m)) with (dc_lep m * (sqrt (s / dc_lep m) * sqrt (s / dc_lep m))) by ring. rewrite sqrt_sqrt by exact Hd. field. lra.
  - destruct (rltP (s / dc_lep m) 0) as [X|X]; [reflexivity|]. exfalso. apply X. unfold Rdiv. pose proof (Rmult_lt_0_compat (- s) (/ dc_lep m) ltac:(lra) (Rinv_0_lt_compat _ Hl)). lra.
Qed.
Print Assumptions series_operating_point.
Example series_operating_point_example : series_tune series_ctl_env "Cont-TC-SeriesDc-v0" = Ok [1 / 50] /\ par_is series_ctl_env "l_e_prime" (1 / 50).
Proof. split; reflexivity. Qed.

(** ShuntDc: the demanded torque where the exciting current is neither over its limit nor
    below 1e-4; over the limit the torque brakes against the exciting current, whatever is demanded. *)
Theorem shunt_operating_point :
  forall m e margin o s ie t, shunt_tune e margin = Ok o -> state_is e s "i_e" ie -> par_is e "l_e_prime" (dc_lep m) -> 0 < dc_lep m -> 0 < so_alim o -> 0 <= so_elim o ->
  exists ia, shunt_select o s [t] = Ok [ia] /\
  (1 / 10000 <= Rabs ie <= so_elim o -> dc_torque m [ia; ie] = Ok t) /\
  (so_elim o < Rabs ie -> exists v, dc_torque m [ia; ie] = Ok v /\ v < 0 /\ Rabs ia = so_alim o).
Proof.
  intros m e margin o s ie t H (je & Ee & Se) Pl Hl Ha He. unfold shunt_tune in H. apply bind_ok in H. destruct H as (l & E1 & H). apply bind_ok in H. destruct H as (je' & E2 & H). rewrite Ee in E2. injection E2 as <-. apply bind_ok in H. destruct H as (ja & E3 & H). apply bind_ok in H. destruct H as (la & E4 & H). apply bind_ok in H. destruct H as (le & E5 & H). injection H as <-. cbn [so_l so_ie so_ia so_alim so_elim] in *.
  unfold read in E1. cbn in E1. unfold one, par in E1. unfold par_is in Pl. rewrite Pl in E1. cbn [bind] in E1. injection E1 as <-.
  unfold shunt_select. cbn [so_l so_ie so_ia so_alim so_elim]. rewrite Se. cbn [bind]. set (lim := le * (1 - margin)) in *. set (al := la * (1 - margin)) in *.
  destruct (rltP lim ie) as [A|A].
  { exists (- al). split; [reflexivity|]. rewrite (Rabs_pos_eq ie) by lra. split; [lra|]. intros _. eexists. split; [reflexivity|]. split; [|rewrite Rabs_Ropp; apply Rabs_pos_eq; lra]. cbn. pose proof (Rmult_lt_0_compat (dc_lep m) al Hl Ha). pose proof (Rmult_lt_0_compat (dc_lep m * al) ie H ltac:(lra)). lra. }
  destruct (rltP ie (- lim)) as [B|B].
  { exists al. split; [reflexivity|]. rewrite (Rabs_left ie) by lra. split; [lra|]. intros _. eexists. split; [reflexivity|]. split; [|apply Rabs_pos_eq; lra]. cbn. pose proof (Rmult_lt_0_compat (dc_lep m) al Hl Ha). pose proof (Rmult_lt_0_compat (dc_lep m * al) (- ie) H ltac:(lra)). lra. }
  eexists. split; [reflexivity|]. split.
  - intros Hr. assert (Hd : (if rle 0 ie && rlt ie (1 / 10000) then 1 / 10000 else if rlt ie 0 && rlt (- (1 / 10000)) ie then - (1 / 10000) else ie) = ie).
    { destruct (rleP 0 ie) as [P|P]; cbn [andb].
      - rewrite (Rabs_pos_eq ie) in Hr by lra. destruct (rltP ie (1 / 10000)) as [Q|Q]; [lra|]. destruct (rltP ie 0) as [Q'|Q']; [lra|reflexivity].
      - rewrite (Rabs_left ie) in Hr by lra. destruct (rltP ie 0) as [Q'|Q']; [|reflexivity]. cbn [andb]. destruct (rltP (- (1 / 10000)) ie) as [Q|Q]; [lra|reflexivity]. }
    rewrite Hd. cbn. f_equal. field. split; [lra|]. intros Z. rewrite Z, Rabs_R0 in Hr. lra.
  - intros Hr. exfalso. unfold Rabs in Hr. destruct (Rcase_abs ie); lra.
Qed.
Print Assumptions shunt_operating_point.
Example shunt_operating_point_example : exists o, shunt_tune shunt_ctl_env (1 / 5) = Ok o /\ 0 < so_alim o /\ 0 <= so_elim o /\ state_is shunt_ctl_env [100; 0; 10; 1; 0; 60] "i_e" 1.
Proof. eexists. split; [reflexivity|]. split; [cbn; lra|]. split; [cbn; lra|]. eexists; split; reflexivity. Qed.

(** ExtExDc: once the exciting current has reached its reference the torque is the demanded
    one, and no other pair of currents with that torque has lower copper losses. *)
Theorem extex_operating_point :
  forall m e id o s t ie, ext_tune e id = Ok o -> motor_type id = Ok "ExtExDc" -> par_is e "l_e_prime" (dc_lep m) -> par_is e "r_a" (dc_ra m) -> par_is e "r_e" (dc_re m) -> 0 < dc_lep m -> 0 < dc_ra m -> 0 < dc_re m -> state_is e s "i_e" ie ->
  exists ia ier, ext_select o s [t] = Ok [ia; ier] /\ 0 <= ier /\
  (1 / 10000 <= ie -> dc_torque m [ia; ie] = Ok t) /\
  (ie = ier -> 1 / 10000 <= ie -> forall xa xe, dc_torque m [xa; xe] = Ok t -> dc_ra m * (ia * ia) + dc_re m * (ie * ie) <= dc_ra m * (xa * xa) + dc_re m * (xe * xe)).
Proof.
  intros m e id o s t ie H Hm Pl Pa Pe Hl Ha He (je & Ee & Se). unfold ext_tune in H. rewrite Hm in H. cbn [bind] in H. rewrite Ee in H. cbn [bind] in H. apply bind_ok in H. destruct H as (ja & _ & H). unfold read in H. cbn in H. unfold one, par in H. unfold par_is in *. rewrite Pl, Pa, Pe in H. cbn [bind] in H. injection H as <-.
  unfold ext_select. cbn [eo_l eo_ie eo_ra eo_re eo_lep item nth_error bind]. rewrite Se. cbn [bind].
  eexists. eexists. split; [reflexivity|]. split; [apply sqrt_pos|]. split.
  - intros Hi. rewrite Rmax_left by lra. cbn. f_equal. field. lra.
  - intros Hr Hi xa xe Hx. rewrite Rmax_left by lra. cbn in Hx. injection Hx as Hx.
    assert (Q : ie * ie = sqrt (dc_ra m) * Rabs t / (sqrt (dc_re m) * dc_lep m)).
    { rewrite Hr at 1 2. apply sqrt_sqrt. apply Rmult_le_pos; [apply Rmult_le_pos; [apply sqrt_pos|apply Rabs_pos]|]. left. apply Rinv_0_lt_compat. apply Rmult_lt_0_compat; [apply sqrt_lt_R0; exact He|exact Hl]. }
    set (ra := sqrt (dc_ra m)) in *. set (re := sqrt (dc_re m)) in *. assert (Ra : 0 < ra) by (apply sqrt_lt_R0; exact Ha). assert (Re : 0 < re) by (apply sqrt_lt_R0; exact He). assert (Sa : dc_ra m = ra * ra) by (symmetry; apply sqrt_sqrt; lra). assert (Sr : dc_re m = re * re) by (symmetry; apply sqrt_sqrt; lra).
    assert (Q1 : Rabs t = re * dc_lep m * (ie * ie) / ra) by (rewrite Q; field; lra).
    assert (Q2 : t * t = Rabs t * Rabs t) by (unfold Rabs; destruct (Rcase_abs t); ring).
    assert (L : dc_ra m * (t / dc_lep m / ie * (t / dc_lep m / ie)) + dc_re m * (ie * ie) = 2 * (ra * re * Rabs t / dc_lep m)).
    { replace (t / dc_lep m / ie * (t / dc_lep m / ie)) with (t * t / (dc_lep m * dc_lep m * (ie * ie))) by (field; lra). rewrite Q2, Sa, Sr, Q1. field. lra. }
    rewrite L. assert (X : Rabs t / dc_lep m = Rabs (xa * xe)). { rewrite <- Hx. rewrite !Rabs_mult. rewrite (Rabs_pos_eq (dc_lep m)) by lra. field. lra. }
    replace (ra * re * Rabs t / dc_lep m) with (ra * re * Rabs (xa * xe)) by (rewrite <- X; field; lra). rewrite Sa, Sr. rewrite Rabs_mult. pose proof (Rle_0_sqr (ra * Rabs xa - re * Rabs xe)) as Z. unfold Rsqr in Z.
    assert (Z1 : Rabs xa * Rabs xa = xa * xa) by (unfold Rabs; destruct (Rcase_abs xa); ring). assert (Z2 : Rabs xe * Rabs xe = xe * xe) by (unfold Rabs; destruct (Rcase_abs xe); ring).
    rewrite <- Z1, <- Z2. lra.
Qed.
Print Assumptions extex_operating_point.
Example extex_operating_point_example : exists o, ext_tune extex_ctl_env "Cont-TC-ExtExDc-v0" = Ok o /\ motor_type "Cont-TC-ExtExDc-v0" = Ok "ExtExDc" /\ state_is extex_ctl_env [100; 0; 10; 1; 0; 0; 60] "i_e" 1 /\ par_is extex_ctl_env "r_a" (3 / 100).
Proof. eexists. split; [reflexivity|]. split; [reflexivity|]. split; [eexists; split; reflexivity|reflexivity]. Qed.

(** ** C114 Modulation controller *)
(** The flux the voltage allows at a speed. *)
Definition speed_flux (f : fpar) (w : R) : R := fp_udc f / (sqrt 3 * Rmax (Rabs w) (1 / 10000) * fp_p f).
Definition modulation_at (f : fpar) (usd usq : R) : R := 2 * sqrt (usd * usd + usq * usq) / fp_udc f.
Definition reads (f : fpar) (s : list R) (usd usq w : R) : Prop := item s (fp_usd f) = Ok usd /\ item s (fp_usq f) = Ok usq /\ item s (fp_om f) = Ok w.
Lemma modulation_eq f m s usd usq w : reads f s usd usq w -> modulation f m s =
  let a := modulation_at f usd usq in let da := fp_k f * fp_amax f - a in
  match (if rlt (11 / 10 * fp_amax f) a then Some (fp_reset f) else fm_int m) with
  | None => ({| fm_int := None; fm_limited := fm_limited m |}, Err TypeError)
  | Some i =>
      let d := fp_gain f / (2 * Rmax (Rabs w) (1 / 10000) * fp_p f / fp_udc f) * (da * fp_tau f + i) in
      if rle (fp_low f) d && rle d (fp_high f)
      then ({| fm_int := Some ((if fm_limited m then fp_reset f else i) + da * fp_tau f); fm_limited := false |}, Ok (speed_flux f w + d))
      else ({| fm_int := Some i; fm_limited := true |}, Ok (speed_flux f w + np_clip d (fp_low f) (fp_high f)))
  end.
Proof. intros (A & B & C). unfold modulation. rewrite A, B, C. reflexivity. Qed.
(** The returned flux is the speed dependent maximum, changed by at most the two bounds. *)
Theorem modulation_bounds :
  forall f m s usd usq w m' psi, reads f s usd usq w -> fp_low f <= fp_high f -> modulation f m s = (m', Ok psi) ->
  speed_flux f w + fp_low f <= psi <= speed_flux f w + fp_high f.
Proof.
  intros f m s usd usq w m' psi Hr Hb H. rewrite (modulation_eq f m s usd usq w Hr) in H. cbn zeta in H. destruct (if rlt (11 / 10 * fp_amax f) (modulation_at f usd usq) then _ else _) as [i|]; [|discriminate].
  match type of H with context [np_clip ?d _ _] => set (dd := d) in * end. destruct (rleP (fp_low f) dd) as [A|A]; cbn [andb] in H; [destruct (rleP dd (fp_high f)) as [B|B]|]; injection H as _ <-; [lra| |];
  pose proof (np_clip_lb dd _ _ Hb); pose proof (np_clip_ub dd (fp_low f) (fp_high f)); lra.
Qed.
Print Assumptions modulation_bounds.
(** A stage that was tuned but not reset raises at its first call, unless the voltage is over the level. *)
Theorem modulation_before_reset :
  forall amax e nom margin f m k g lo hi r s usd usq w, foc_tune amax None e nom margin = Ok (f, m) -> reads f s usd usq w ->
  modulation_at f usd usq <= 11 / 10 * amax ->
  snd (modulation (foc_fill f k g lo hi r) m s) = Err TypeError /\ exists psi, snd (modulation (foc_fill f k g lo hi r) (foc_reset (foc_fill f k g lo hi r) m) s) = Ok psi.
Proof.
  intros amax e nom margin f m k g lo hi r s usd usq w H Hr Ha. unfold foc_tune in H. do 12 (apply bind_ok in H; destruct H as (? & _ & H)). injection H as <- <-.
  assert (Hr' : reads (foc_fill {| fp_om := x; fp_usd := x0; fp_usq := x1; fp_tq := x2; fp_isd := x4; fp_isq := x5; fp_p := x7; fp_tau := ce_tau e; fp_udc := sqrt 3 * x10; fp_amax := amax; fp_k := 0; fp_gain := 0; fp_low := 0; fp_high := 0; fp_reset := 0; fp_dlim := x8 * (1 - margin); fp_qlim := x9 * (1 - margin); fp_lim := ce_limits e; fp_nom := nom |} k g lo hi r) s usd usq w) by exact Hr.
  split.
  - rewrite (modulation_eq _ _ s usd usq w Hr'). cbn zeta. cbn [foc_fill fp_amax]. match goal with |- context [rlt ?a ?b] => destruct (rltP a b) as [B|B] end; [|reflexivity]. exfalso. unfold modulation_at in *. cbn [foc_fill fp_udc] in *. lra.
  - rewrite (modulation_eq _ _ s usd usq w Hr'). cbn zeta. cbn [foc_reset fm_int]. match goal with |- context [rlt ?a ?b] => destruct (rlt a b) end; cbn [fm_int]; match goal with |- context [if ?c then _ else _] => destruct c end; eexists; reflexivity.
Qed.
Print Assumptions modulation_before_reset.
(** Anti-windup: after a reset the integrator stays bounded over every history with bounded speed and voltage. *)
Fixpoint modulations (f : fpar) (m : fmod) (l : list (list R)) : fmod := match l with [] => m | s :: r => modulations f (fst (modulation f m s)) r end.
Theorem modulation_integrator_bounded :
  forall f m l W U i0, 0 < fp_udc f -> 0 < fp_p f -> 0 < fp_gain f -> 0 <= fp_tau f -> 1 / 10000 <= W -> fm_int m = Some i0 ->
  (forall s, In s l -> exists usd usq w, reads f s usd usq w /\ Rabs w <= W /\ Rabs (fp_k f * fp_amax f - modulation_at f usd usq) <= U) ->
  let H := Rmax (Rabs (fp_low f)) (Rabs (fp_high f)) in
  let B := Rmax (Rabs i0) (Rmax (Rabs (fp_reset f) + U * fp_tau f) (H * (2 * W * fp_p f / fp_udc f) / fp_gain f)) in
  exists i, fm_int (modulations f m l) = Some i /\ Rabs i <= B.
Proof.
  intros f m l W U i0 Hu Hp Hg Ht HW Hi Hl H B. assert (HB : forall i, fm_int m = Some i -> Rabs i <= B). { intros i E. rewrite Hi in E. injection E as <-. apply Rmax_l. }
  assert (HR : Rabs (fp_reset f) + U * fp_tau f <= B) by (eapply Rle_trans; [|apply Rmax_r]; apply Rmax_l). assert (HS : H * (2 * W * fp_p f / fp_udc f) / fp_gain f <= B) by (eapply Rle_trans; [|apply Rmax_r]; apply Rmax_r).
  clearbody B. assert (Hi' : exists i, fm_int m = Some i) by (exists i0; exact Hi). clear Hi i0.
  assert (HU : l <> [] -> 0 <= U). { destruct l as [|s l']; [congruence|]. intros _. destruct (Hl s (or_introl eq_refl)) as (a & b & w & _ & _ & D). eapply Rle_trans; [apply Rabs_pos|exact D]. }
  revert m HB Hi'. induction l as [|s l IH]; intros m HB (i & Hi).
  { exists i. split; [exact Hi|]. apply HB. exact Hi. }
  cbn [modulations]. apply IH.
  - intros s' Hs. apply Hl. right. exact Hs.
  - intros _. apply HU. discriminate.
  - destruct (Hl s (or_introl eq_refl)) as (usd & usq & w & Hr & Hw & HD). rewrite (modulation_eq f m s usd usq w Hr). cbn zeta. specialize (HU ltac:(discriminate)).
    set (da := fp_k f * fp_amax f - modulation_at f usd usq) in *. set (om := Rmax (Rabs w) (1 / 10000)). assert (Hom : 1 / 10000 <= om <= W) by (unfold om; split; [apply Rmax_r|apply Rmax_lub; [exact Hw|exact HW]]).
    set (ki := 2 * om * fp_p f / fp_udc f). assert (Hki : 0 < ki <= 2 * W * fp_p f / fp_udc f).
    { unfold ki. assert (0 < / fp_udc f) by (apply Rinv_0_lt_compat; exact Hu). split; unfold Rdiv; [apply Rmult_lt_0_compat; [|assumption]; apply Rmult_lt_0_compat; lra|]. apply Rmult_le_compat_r; [lra|]. apply Rmult_le_compat_r; lra. }
    assert (Hr1 : Rabs (fp_reset f) <= B) by (pose proof (Rmult_le_pos U (fp_tau f) HU Ht); lra).
    destruct (rlt (11 / 10 * fp_amax f) (modulation_at f usd usq)).
    + match goal with |- context [rle (fp_low f) ?d] => set (dd := d) end. destruct (rleP (fp_low f) dd) as [A|A]; cbn [andb]; [destruct (rleP dd (fp_high f)) as [C|C]|]; cbn [fst fm_int]; intros j E; injection E as <-; try exact Hr1.
      replace (if fm_limited m then fp_reset f else fp_reset f) with (fp_reset f) by (destruct (fm_limited m); reflexivity). eapply Rle_trans; [apply Rabs_triang|]. rewrite Rabs_mult, (Rabs_pos_eq (fp_tau f) Ht). pose proof (Rmult_le_compat_r (fp_tau f) _ _ Ht HD). lra.
    + rewrite Hi. match goal with |- context [rle (fp_low f) ?d] => set (dd := d) end. destruct (rleP (fp_low f) dd) as [A|A]; cbn [andb]; [destruct (rleP dd (fp_high f)) as [C|C]|]; cbn [fst fm_int]; intros j E; injection E as <-; try (apply HB; exact Hi).
      destruct (fm_limited m).
      * eapply Rle_trans; [apply Rabs_triang|]. rewrite Rabs_mult, (Rabs_pos_eq (fp_tau f) Ht). pose proof (Rmult_le_compat_r (fp_tau f) _ _ Ht HD). lra.
      * assert (Hd : Rabs dd <= H). { unfold H. unfold Rabs at 1. destruct (Rcase_abs dd) as [N|N]. - eapply Rle_trans; [|apply Rmax_l]. pose proof (Rle_abs (- fp_low f)) as Z. rewrite Rabs_Ropp in Z. lra. - eapply Rle_trans; [|apply Rmax_r]. pose proof (Rle_abs (fp_high f)). lra. }
        replace (i + da * fp_tau f) with (dd * ki / fp_gain f) by (unfold dd; fold ki; field; lra). eapply Rle_trans; [|exact HS]. assert (Hgi : 0 < / fp_gain f) by (apply Rinv_0_lt_compat; lra). set (K := 2 * W * fp_p f / fp_udc f) in *.
        replace (dd * ki / fp_gain f) with (dd * (ki * / fp_gain f)) by (unfold Rdiv; ring). replace (H * K / fp_gain f) with (H * (K * / fp_gain f)) by (unfold Rdiv; ring). assert (Hkg : 0 < ki * / fp_gain f) by (apply Rmult_lt_0_compat; lra).
        rewrite Rabs_mult, (Rabs_pos_eq (ki * / fp_gain f)) by lra. apply Rmult_le_compat; [apply Rabs_pos|lra|exact Hd|apply Rmult_le_compat_r; lra].
  - destruct (Hl s (or_introl eq_refl)) as (usd & usq & w & Hr & _). rewrite (modulation_eq f m s usd usq w Hr). cbn zeta. rewrite Hi. destruct (rlt _ _); match goal with |- context [if ?c then _ else _] => destruct c end; eexists; reflexivity.
Qed.
Print Assumptions modulation_integrator_bounded.
Example modulation_example : exists f m, foc_tune (11 / 10) None scim_ctl_env (repeat 1 16) (2 / 10) = Ok (f, m) /\ reads f (repeat 0 16) 0 0 0 /\ modulation_at f 0 0 <= 11 / 10 * (11 / 10) /\ 0 < fp_udc f /\ 0 < fp_p f /\ 0 <= fp_tau f.
Proof.
  do 2 eexists. split; [reflexivity|]. split; [repeat split; reflexivity|]. assert (0 < sqrt 3) by (apply sqrt_lt_R0; lra). split; [|cbn; repeat split; lra]. unfold modulation_at. rewrite Rmult_0_l, Rplus_0_l, sqrt_0. unfold Rdiv. lra.
Qed.
