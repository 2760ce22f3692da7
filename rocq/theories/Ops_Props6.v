(** The operation point selection of the externally excited synchronous motor.
    Properties C176, C177, C178.  Source: gem_controllers/stages/operation_point_selection/
    eesm_ops.py and foc_operation_point_selection.py. *)
From Coq Require Import ZArith Lra Lia.
From Verif Require Import PyBaseFacts PyDictFacts Transform_Model Transform_Proofs Motor_Model Conv_Model Wrap_Model Ctl_Model Ctl_Model2 Ctl_Spec Ctl_Proofs Ctl_Proofs2 Ctl_Props Emf_Props Ops_Model Ops_Proofs Ops_Props Ops_Props2 Ops_Props3 Ops_Props4 Ops_Model2 Ops_Proofs2.
Local Open Scope string_scope.
Local Open Scope list_scope.
Local Open Scope R_scope.

(** ** C176 The table of operating points *)
(** A point of the grid of 50 torques, 100 fluxes and 150 excitation currents. *)
Definition on_grid (elim pmax tlim : R) (r : erow) : Prop :=
  (exists k, (k < 50)%nat /\ er_t r = INR k * (tlim / 49)) /\ (exists j, (j < 100)%nat /\ er_psi r = INR j * (pmax / 99)) /\ (exists i, (i < 150)%nat /\ er_e r = INR i * (elim / 149)).
(** What the motor does at a row: it gives the row's torque with currents inside the circle. *)
Definition gives (c : econst) (lim : R) (r : erow) : Prop :=
  torque_of (ec_p c) (ec_ld c) (ec_lq c) (ec_lm c * er_e r) (er_d r) (er_q r) = er_t r /\ sqrt (er_d r * er_d r + er_q r * er_q r) < lim.
Lemma admitted_gives roots c lim r : ec_p c <> 0 -> admitted roots c lim r -> gives c lim r.
Proof.
  intros Hp (E & L & C). split; [|exact L]. unfold eesm_solve in E. unfold torque_of. destruct (reqP (er_t r) 0) as [A|A]; destruct (reqP (er_e r) 0) as [B|B]; cbn [andb] in E.
  - apply ok_inj in E. apply pair_equal_spec in E. destruct E as [E1 E2]. rewrite <- E1, <- E2, A. ring.
  - apply bind_ok in E. destruct E as (d & _ & E). apply ok_inj in E. apply pair_equal_spec in E. destruct E as [E1 E2]. rewrite <- E2, <- E1, A. unfold Rdiv. ring.
  - apply bind_ok in E. destruct E as (d & _ & E). apply ok_inj in E. apply pair_equal_spec in E. destruct E as [E1 E2]. destruct C as [[C _]|C]; [contradiction|]. rewrite <- E1 in C. rewrite <- E2, <- E1. field. split; [intros Z; apply C; rewrite Z; ring|exact Hp].
  - apply bind_ok in E. destruct E as (d & _ & E). apply ok_inj in E. apply pair_equal_spec in E. destruct E as [E1 E2]. destruct C as [[C _]|C]; [contradiction|]. rewrite <- E1 in C. rewrite <- E2, <- E1. field. split; [intros Z; apply C; rewrite Z; ring|exact Hp].
Qed.
Lemma linspace_in b n x : (1 < n)%nat -> (In x (linspace 0 b n) <-> exists i, (i < n)%nat /\ x = INR i * (b / INR (n - 1))).
Proof.
  intros Hn. split.
  - intros H. apply In_nth_error in H. destruct H as (i & Hi). assert (K : (i < n)%nat) by (rewrite <- (linspace_length 0 b n); apply nth_error_Some; rewrite Hi; discriminate). rewrite linspace_nth in Hi by exact K. apply some_inj in Hi. exists i. split; [exact K|]. rewrite <- Hi, Rminus_0_r. ring.
  - intros (i & K & ->). apply nth_error_In with i. rewrite linspace_nth by exact K. f_equal. rewrite Rminus_0_r. ring.
Qed.
Lemma N49 : INR (ee_t_count - 1) = 49. Proof. rewrite INR_IZR_INZ. reflexivity. Qed.
Lemma N99 : INR (ee_psi_count - 1) = 99. Proof. rewrite INR_IZR_INZ. reflexivity. Qed.
Lemma N149 : INR (ee_i_count - 1) = 149. Proof. rewrite INR_IZR_INZ. reflexivity. Qed.
Lemma N199 : INR (ee_grid - 1) = 199. Proof. rewrite INR_IZR_INZ. reflexivity. Qed.
Lemma ee_i_in elim x : In x (linspace 0 elim ee_i_count) <-> exists i, (i < 150)%nat /\ x = INR i * (elim / 149).
Proof. rewrite linspace_in by (unfold ee_i_count; lia). rewrite N149. reflexivity. Qed.
(** a member of the scan is an admitted grid point *)
Lemma scan_sound roots c lim elim pmax tlim scan x l r : ee_scan roots c lim elim pmax tlim = Ok scan -> In x scan -> In l (snd x) -> In r l -> er_t r = fst x /\ on_grid elim pmax tlim r /\ admitted roots c lim r.
Proof.
  intros H Hx Hl Hr. destruct (ee_scan_lists _ _ _ _ _ _ _ H) as [L S]. apply In_nth_error in Hx. destruct Hx as (k & Hk). apply In_nth_error in Hl. destruct Hl as (j & Hj). destruct (S k x Hk) as (Ft & L2 & S2). apply (S2 j l Hj) in Hr. destruct Hr as (A & B & C & D). split; [exact A|]. split; [|exact D].
  split; [exists k|split; [exists j|apply ee_i_in; exact C]].
  - split; [change 50%nat with ee_t_count; rewrite <- L; apply nth_error_Some; rewrite Hk; discriminate|]. rewrite A, Ft, N49, Rminus_0_r. ring.
  - split; [change 100%nat with ee_psi_count; rewrite <- L2; apply nth_error_Some; rewrite Hj; discriminate|]. rewrite B, N99, Rminus_0_r. ring.
Qed.
(** every admitted grid point is a member of the scan *)
Lemma scan_complete roots c lim elim pmax tlim scan r : ee_scan roots c lim elim pmax tlim = Ok scan -> on_grid elim pmax tlim r -> admitted roots c lim r ->
  exists k j x l, nth_error scan k = Some x /\ fst x = er_t r /\ nth_error (snd x) j = Some l /\ er_psi r = INR j * (pmax / 99) /\ er_t r = INR k * (tlim / 49) /\ In r l.
Proof.
  intros H ((k & Hk & Ek) & (j & Hj & Ej) & Hi) A. destruct (ee_scan_lists _ _ _ _ _ _ _ H) as [L S]. destruct (nth_error scan k) as [x|] eqn:Ex; [|apply nth_error_None in Ex; rewrite L in Ex; unfold ee_t_count in Ex; lia]. destruct (S k x Ex) as (Ft & L2 & S2).
  destruct (nth_error (snd x) j) as [l|] eqn:El; [|apply nth_error_None in El; rewrite L2 in El; unfold ee_psi_count in El; lia]. exists k, j, x, l. assert (Fx : fst x = er_t r) by (rewrite Ft, N49, Rminus_0_r, Ek; ring). repeat split; try assumption; try reflexivity. apply (S2 j l El). repeat split; try apply A; [symmetry; exact Fx|rewrite Ej, N99, Rminus_0_r; ring|apply ee_i_in; exact Hi].
Qed.
(** Every row of [best_params] lies on the grid, gives its torque inside the current circle and
    has the least loss of all admitted grid points of this torque; every torque with an
    admitted point has a row.  The same holds for [best_params_psi] and pairs of torque and flux. *)
Theorem eesm_rows_best :
  forall roots c lim elim pmax tlim scan rs re, ee_scan roots c lim elim pmax tlim = Ok scan -> ec_p c <> 0 ->
  (forall r, In r (ee_rows rs re scan) -> on_grid elim pmax tlim r /\ gives c lim r /\
     forall x, on_grid elim pmax tlim x -> admitted roots c lim x -> er_t x = er_t r -> tlim <> 0 -> ee_loss rs re (er_d r) (er_q r) (er_e r) <= ee_loss rs re (er_d x) (er_q x) (er_e x)) /\
  (forall r, In r (ee_rows_psi rs re scan) -> on_grid elim pmax tlim r /\ gives c lim r /\
     forall x, on_grid elim pmax tlim x -> admitted roots c lim x -> er_t x = er_t r -> er_psi x = er_psi r -> tlim <> 0 -> pmax <> 0 -> ee_loss rs re (er_d r) (er_q r) (er_e r) <= ee_loss rs re (er_d x) (er_q x) (er_e x)) /\
  (forall x, on_grid elim pmax tlim x -> admitted roots c lim x ->
     (exists r, In r (ee_rows rs re scan) /\ er_t r = er_t x) /\ exists r, In r (ee_rows_psi rs re scan) /\ er_t r = er_t x /\ er_psi r = er_psi x).
Proof.
  intros roots c lim elim pmax tlim scan rs re H Hp. destruct (ee_scan_lists _ _ _ _ _ _ _ H) as [L S].
  assert (INJ : forall n b i j, b <> 0 -> 0 < n -> INR i * (b / n) = INR j * (b / n) -> i = j). { intros n b i j Hb Hn E. apply Rmult_eq_reg_r in E; [apply INR_eq; exact E|]. intros Z. apply Hb. replace b with (b / n * n) by (field; lra). rewrite Z. ring. }
  split; [|split].
  - intros r Hr. unfold ee_rows in Hr. apply in_flat_map in Hr. destruct Hr as (y & Hy & Hr). apply ee_best_spec in Hr. destruct Hr as [Hr M]. apply in_concat in Hr. destruct Hr as (l & Hl & Hr). destruct (scan_sound _ _ _ _ _ _ _ _ _ _ H Hy Hl Hr) as (T & G & A). split; [exact G|]. split; [apply (admitted_gives roots); assumption|].
    intros x Gx Ax Tx Ht. apply M. apply In_nth_error in Hy. destruct Hy as (k & Hk). destruct (scan_complete _ _ _ _ _ _ _ _ H Gx Ax) as (k' & j' & y' & l' & Ey & Fy & El & _ & Ek & Hx). destruct (S k y Hk) as (Ft & _). rewrite N49, Rminus_0_r, Rplus_0_l in Ft.
    assert (k' = k) by (apply (INJ 49 tlim); [exact Ht|lra|]; rewrite <- Ek, Tx, T, Ft; reflexivity). subst k'. rewrite Hk in Ey. apply some_inj in Ey. subst y'. apply in_concat. exists l'. split; [eapply nth_error_In; exact El|exact Hx].
  - intros r Hr. unfold ee_rows_psi in Hr. apply in_flat_map in Hr. destruct Hr as (y & Hy & Hr). apply in_flat_map in Hr. destruct Hr as (l & Hl & Hr). apply ee_best_spec in Hr. destruct Hr as [Hr M]. destruct (scan_sound _ _ _ _ _ _ _ _ _ _ H Hy Hl Hr) as (T & G & A). split; [exact G|]. split; [apply (admitted_gives roots); assumption|].
    intros x Gx Ax Tx Px Ht Hpm. apply M. apply In_nth_error in Hy. destruct Hy as (k & Hk). apply In_nth_error in Hl. destruct Hl as (j & Hj). destruct (scan_complete _ _ _ _ _ _ _ _ H Gx Ax) as (k' & j' & y' & l' & Ey & Fy & El & Ej & Ek & Hx). destruct (S k y Hk) as (Ft & _ & S2). rewrite N49, Rminus_0_r, Rplus_0_l in Ft.
    assert (k' = k) by (apply (INJ 49 tlim); [exact Ht|lra|]; rewrite <- Ek, Tx, T, Ft; reflexivity). subst k'. rewrite Hk in Ey. apply some_inj in Ey. subst y'. apply (S2 j l Hj) in Hr. destruct Hr as (_ & B & _). rewrite N99, Rminus_0_r, Rplus_0_l in B.
    assert (j' = j) by (apply (INJ 99 pmax); [exact Hpm|lra|]; rewrite <- Ej, Px, B; reflexivity). subst j'. rewrite Hj in El. apply some_inj in El. subst l'. exact Hx.
  - intros x Gx Ax. destruct (scan_complete _ _ _ _ _ _ _ _ H Gx Ax) as (k & j & y & l & Ey & Fy & El & Ej & _ & Hx). split.
    + destruct (ee_best_some rs re (concat (snd y))) as (r & Er). { intros Z. assert (In x (concat (snd y))) by (apply in_concat; exists l; split; [eapply nth_error_In; exact El|exact Hx]). rewrite Z in *. contradiction. }
      exists r. assert (I : In r (ee_best rs re (concat (snd y)))) by (rewrite Er; left; reflexivity). split; [apply in_flat_map; exists y; split; [eapply nth_error_In; exact Ey|exact I]|]. apply ee_best_spec in I. destruct I as [I _]. apply in_concat in I. destruct I as (l' & Hl' & I). destruct (scan_sound _ _ _ _ _ _ _ _ _ _ H (nth_error_In _ _ Ey) Hl' I) as (T & _). rewrite T. exact Fy.
    + destruct (ee_best_some rs re l) as (r & Er). { intros Z. rewrite Z in Hx. destruct Hx. }
      exists r. assert (I : In r (ee_best rs re l)) by (rewrite Er; left; reflexivity). split; [apply in_flat_map; exists y; split; [eapply nth_error_In; exact Ey|]; apply in_flat_map; exists l; split; [eapply nth_error_In; exact El|exact I]|]. apply ee_best_spec in I. destruct I as [I _]. destruct (S k y Ey) as (_ & _ & S2). apply (S2 j l El) in I. destruct I as (A & B & _). split; [rewrite A; exact Fy|]. rewrite B, Ej, N99, Rminus_0_r, Rplus_0_l. reflexivity.
Qed.
Print Assumptions eesm_rows_best.
(** ** The tuned stage *)
Lemma eesm_tune_inv cplx tri roots cubic amax damping old e nom margin o m : eesm_tune cplx tri roots cubic amax damping old e nom margin = Ok (o, m) ->
  exists f0 ld lq lm rs re il ie ql tl scan po, foc_tune amax old e nom margin = Ok (f0, m) /\
  par "l_d" (ce_par e) = Ok ld /\ par "l_q" (ce_par e) = Ok lq /\ par "l_m" (ce_par e) = Ok lm /\ par "r_s" (ce_par e) = Ok rs /\ par "r_e" (ce_par e) = Ok re /\
  str_index "i_e" (ce_names e) = Ok il /\ item (ce_limits e) il = Ok ie /\ item (ce_limits e) (fp_isq f0) = Ok ql /\ item (ce_limits e) (fp_tq f0) = Ok tl /\
  let elim := ie * (1 - margin) in let lim := ql * (1 - margin) in
  let hi := 2 / 10 * sqrt ((lm * elim * margin + ld * fp_qlim f0 * margin) * (lm * elim * margin + ld * fp_qlim f0 * margin)) in
  cplx = true /\ ee_f o = foc_fill f0 (953 / 1000) (1 / (lq / (125 / 100 * rs)) * (foc_alpha damping - 1) / (foc_alpha damping * foc_alpha damping)) (- hi) hi (1 / 100 * - hi) /\
  ee_c o = {| ec_ld := ld; ec_lq := lq; ec_lm := lm; ec_p := fp_p f0 |} /\ ee_pmax o = lm * elim + ld * lim /\
  ee_scan roots (ee_c o) lim elim (ee_pmax o) tl = Ok scan /\ np_max (map er_t (ee_rows rs re scan)) = Ok (ee_tmax o) /\
  cubic (map (fun r => (er_t r, er_psi r)) (ee_rows rs re scan)) = Ok po /\ ee_popt o = po /\
  ee_tpsi o = combine (linspace 0 (ee_pmax o) ee_psi_count) (map (fun j => 99 / 100 * ee_tmax_at scan j) (seq 0 ee_psi_count)) /\
  let bp := ee_rows_psi rs re scan in let pts := map (fun r => (er_t r, er_psi r)) bp in let ts := linspace 0 (ee_tmax o) ee_grid in let ps := linspace 0 (ee_pmax o) ee_grid in
  griddata tri pts (map er_d bp) ts ps = Ok (ee_d o) /\ griddata tri pts (map er_q bp) ts ps = Ok (ee_q o) /\ griddata tri pts (map er_e bp) ts ps = Ok (ee_e o).
Proof.
  intros H. unfold eesm_tune in H. apply bind_ok in H. destruct H as ([f0 m0] & E0 & H). cbn [fst snd] in H. cbn zeta in H.
  apply bind_ok in H. destruct H as (ld & E1 & H). apply bind_ok in H. destruct H as (lq & E2 & H). apply bind_ok in H. destruct H as (lm & E3 & H). apply bind_ok in H. destruct H as (le & E4 & H). apply bind_ok in H. destruct H as (rs & E5 & H). apply bind_ok in H. destruct H as (re & E6 & H).
  apply bind_ok in H. destruct H as (il & E7 & H). apply bind_ok in H. destruct H as (ie & E8 & H). apply bind_ok in H. destruct H as (ql & E9 & H). apply bind_ok in H. destruct H as (tl & E10 & H). apply bind_ok in H. destruct H as (o' & E11 & H). apply ok_inj in H. apply pair_equal_spec in H. destruct H as [-> ->].
  unfold ee_luts in E11. cbn zeta in E11. apply bind_ok in E11. destruct E11 as (scan & ES & E11). apply bind_ok in E11. destruct E11 as (tmax & ET & E11). apply bind_ok in E11. destruct E11 as (po & EP & E11). do 3 (apply bind_ok in E11; destruct E11 as (? & _ & E11)). destruct cplx; [|discriminate].
  apply bind_ok in E11. destruct E11 as (td & ED & E11). apply bind_ok in E11. destruct E11 as (tq & EQ & E11). apply bind_ok in E11. destruct E11 as (te & EE & E11). apply ok_inj in E11. subst o.
  exists f0, ld, lq, lm, rs, re, il, ie, ql, tl, scan, po. cbn [ee_f ee_c ee_pmax ee_tmax ee_popt ee_tpsi ee_d ee_q ee_e ec_lm ec_ld] in *. cbn zeta.
  split; [exact E0|]. split; [exact E1|]. split; [exact E2|]. split; [exact E3|]. split; [exact E5|]. split; [exact E6|]. split; [exact E7|]. split; [exact E8|]. split; [exact E9|]. split; [exact E10|].
  split; [reflexivity|]. split; [reflexivity|]. split; [reflexivity|]. split; [reflexivity|]. split; [exact ES|]. split; [destruct (ee_rows rs re scan); [discriminate|exact ET]|]. split; [exact EP|]. split; [reflexivity|]. split; [reflexivity|]. split; [exact ED|]. split; [exact EQ|exact EE].
Qed.
(** The largest torque of the tables and, for each flux, the largest torque of its admitted points. *)
Lemma fold_last (j : nat) (l : list (R * list (list erow))) : forall acc,
  let v := fold_left (fun acc x => match nth_error (snd x) j with Some (_ :: _) => fst x | _ => acc end) l acc in
  (v = acc /\ forall x r rs, In x l -> nth_error (snd x) j <> Some (r :: rs)) \/
  exists k x, nth_error l k = Some x /\ v = fst x /\ (exists r rs, nth_error (snd x) j = Some (r :: rs)) /\ forall k' x' r rs, nth_error l k' = Some x' -> nth_error (snd x') j = Some (r :: rs) -> (k' <= k)%nat.
Proof.
  induction l as [|y l IH]; intros acc; [left; split; [reflexivity|intros x r rs []]|]. cbn [fold_left]. destruct (IH (match nth_error (snd y) j with Some (_ :: _) => fst y | _ => acc end)) as [[V E]|(k & x & Hk & V & N & M)].
  - destruct (nth_error (snd y) j) as [[|r rs]|] eqn:Ey.
    + left. split; [exact V|]. intros x r rs [<-|Hx]; [rewrite Ey; discriminate|apply E; exact Hx].
    + right. exists O, y. split; [reflexivity|]. split; [exact V|]. split; [exists r, rs; exact Ey|]. intros [|k'] x' r' rs' Hk' Hx'; [lia|]. exfalso. eapply E; [eapply nth_error_In; exact Hk'|exact Hx'].
    + left. split; [exact V|]. intros x r rs [<-|Hx]; [rewrite Ey; discriminate|apply E; exact Hx].
  - right. exists (S k), x. split; [exact Hk|]. split; [exact V|]. split; [exact N|]. intros [|k'] x' r' rs' Hk' Hx'; [lia|]. specialize (M k' x' r' rs' Hk' Hx'). lia.
Qed.
Theorem eesm_largest_torques :
  forall cplx tri roots cubic amax damping old e nom margin o m ql il ie tl, eesm_tune cplx tri roots cubic amax damping old e nom margin = Ok (o, m) ->
  item (ce_limits e) (fp_isq (ee_f o)) = Ok ql -> str_index "i_e" (ce_names e) = Ok il -> item (ce_limits e) il = Ok ie -> item (ce_limits e) (fp_tq (ee_f o)) = Ok tl -> 0 <= tl ->
  let ok x := on_grid (ie * (1 - margin)) (ee_pmax o) tl x /\ admitted roots (ee_c o) (ql * (1 - margin)) x in
  0 <= ee_tmax o <= tl /\ (exists x, ok x /\ er_t x = ee_tmax o) /\ (forall x, ok x -> er_t x <= ee_tmax o) /\
  (forall j, (j < 100)%nat -> exists t, nth_error (ee_tpsi o) j = Some (INR j * (ee_pmax o / 99), 99 / 100 * t) /\
     (t = 0 \/ exists x, ok x /\ er_psi x = INR j * (ee_pmax o / 99) /\ er_t x = t) /\
     (ee_pmax o <> 0 -> forall x, ok x -> er_psi x = INR j * (ee_pmax o / 99) -> er_t x <= t) /\ 0 <= t <= ee_tmax o).
Proof.
  intros cplx tri roots cubic amax damping old e nom margin o m ql il ie tl H Hql Hil Hie Htl H0 ok.
  destruct (eesm_tune_inv _ _ _ _ _ _ _ _ _ _ _ _ H) as (f0 & ld & lq & lm & rs & re & il' & ie' & ql' & tl' & scan & po & E0 & _ & _ & _ & _ & _ & E7 & E8 & E9 & E10 & X). cbn zeta in X. destruct X as (_ & FO & EC & EPM & ES & ET & _ & _ & TP & _).
  assert (FI : fp_isq (ee_f o) = fp_isq f0) by (rewrite FO; reflexivity). assert (FT : fp_tq (ee_f o) = fp_tq f0) by (rewrite FO; reflexivity). rewrite FI, E9 in Hql. rewrite E7 in Hil. apply ok_inj in Hql, Hil. subst ql' il'. rewrite E8 in Hie. rewrite FT, E10 in Htl. apply ok_inj in Hie, Htl. subst ie' tl'.
  set (elim := ie * (1 - margin)) in *. set (lim := ql * (1 - margin)) in *. destruct (np_max_spec _ _ ET) as [I M]. apply in_map_iff in I. destruct I as (r0 & T0 & I0).
  assert (SND : forall r, In r (ee_rows rs re scan) -> ok r). { intros r Hr. unfold ee_rows in Hr. apply in_flat_map in Hr. destruct Hr as (y & Hy & Hr). apply ee_best_spec in Hr. destruct Hr as [Hr _]. apply in_concat in Hr. destruct Hr as (l & Hl & Hr). destruct (scan_sound _ _ _ _ _ _ _ _ _ _ ES Hy Hl Hr) as (_ & G & A). split; assumption. }
  assert (UB : forall x, ok x -> er_t x <= ee_tmax o).
  { intros x [Gx Ax]. destruct (scan_complete _ _ _ _ _ _ _ _ ES Gx Ax) as (k & j & y & l & Ey & Fy & El & _ & _ & Hx). destruct (ee_best_some rs re (concat (snd y))) as (r & Er). { intros Z. assert (In x (concat (snd y))) by (apply in_concat; exists l; split; [eapply nth_error_In; exact El|exact Hx]). rewrite Z in *. contradiction. }
    assert (IR : In r (ee_best rs re (concat (snd y)))) by (rewrite Er; left; reflexivity). assert (IRR : In r (ee_rows rs re scan)) by (apply in_flat_map; exists y; split; [eapply nth_error_In; exact Ey|exact IR]). apply ee_best_spec in IR. destruct IR as [IR _]. apply in_concat in IR. destruct IR as (l' & Hl' & IR). destruct (scan_sound _ _ _ _ _ _ _ _ _ _ ES (nth_error_In _ _ Ey) Hl' IR) as (T & _). rewrite <- Fy, <- T. apply M, in_map, IRR. }
  assert (RNG : forall k, (k < 50)%nat -> 0 <= INR k * (tl / 49) <= tl). { intros k Hk. assert (0 <= INR k) by apply pos_INR. assert (INR k <= 49) by (replace 49 with (INR 49) by (rewrite INR_IZR_INZ; reflexivity); apply le_INR; lia). assert (P : 0 <= tl / 49) by lra. split; [apply Rmult_le_pos; assumption|]. assert (INR k * (tl / 49) <= 49 * (tl / 49)) by (apply Rmult_le_compat_r; assumption). lra. }
  assert (OKR : forall x, ok x -> 0 <= er_t x <= tl) by (intros x (((k & Hk & Ek) & _) & _); rewrite Ek; apply RNG; exact Hk).
  split; [rewrite <- T0; apply OKR, SND, I0|]. split; [exists r0; split; [apply SND, I0|exact T0]|]. split; [exact UB|].
  intros j Hj. exists (ee_tmax_at scan j). split.
  { rewrite TP. assert (NC : forall (A B : Type) (la : list A) (lb : list B) i a b, nth_error la i = Some a -> nth_error lb i = Some b -> nth_error (combine la lb) i = Some (a, b)).
    { intros A B la. induction la as [|a la IH]; intros lb i a' b' Ha Hb; [destruct i; discriminate|]. destruct lb as [|b lb]; [destruct i; discriminate|]. destruct i as [|i]; cbn [nth_error combine] in Ha, Hb |- *; [congruence|apply IH; assumption]. }
    apply NC; [rewrite linspace_nth by exact Hj; f_equal; rewrite N99, Rminus_0_r; ring|]. rewrite nth_error_map, nth_error_seq by exact Hj. reflexivity. }
  destruct (ee_scan_lists _ _ _ _ _ _ _ ES) as [L S]. destruct (fold_last j scan 0) as [[V E]|(k & x & Hk & V & (r & rs' & N) & Mx)]; fold (ee_tmax_at scan j) in V.
  - rewrite V. split; [left; reflexivity|]. split; [|split; [lra|rewrite <- T0; apply OKR, SND, I0]]. intros Hpm x [Gx Ax] Px. exfalso. destruct (scan_complete _ _ _ _ _ _ _ _ ES Gx Ax) as (k & j' & y & l & Ey & _ & El & Ej & _ & Hx).
    assert (j' = j). { apply INR_eq. apply Rmult_eq_reg_r with (ee_pmax o / 99); [rewrite <- Ej; exact Px|]. intros Z. apply Hpm. lra. } subst j'. destruct l as [|a l]; [destruct Hx|]. apply (E y a l (nth_error_In _ _ Ey)). exact El.
  - rewrite V. destruct (S k x Hk) as (Ft & L2 & S2). rewrite N49, Rminus_0_r, Rplus_0_l in Ft. pose proof (proj1 (S2 j _ N r) (or_introl eq_refl)) as Q. destruct Q as (Q1 & Q2 & _). rewrite N99, Rminus_0_r, Rplus_0_l in Q2. destruct (scan_sound _ _ _ _ _ _ _ x (r :: rs') r ES (nth_error_In _ _ Hk) (nth_error_In _ _ N) (or_introl eq_refl)) as (_ & Gr & Ar).
    split; [right; exists r; split; [split; assumption|split; assumption]|]. split.
    + intros Hpm y [Gy Ay] Py. destruct (scan_complete _ _ _ _ _ _ _ _ ES Gy Ay) as (k' & j' & z & l & Ez & _ & El & Ej & Ek & Hy). assert (j' = j). { apply INR_eq. apply Rmult_eq_reg_r with (ee_pmax o / 99); [rewrite <- Ej; exact Py|]. intros Z. apply Hpm. lra. } subst j'. destruct l as [|a l]; [destruct Hy|]. specialize (Mx k' z a l Ez El). rewrite Ft, Ek. apply Rmult_le_compat_r; [lra|apply le_INR; exact Mx].
    + rewrite <- Q1. split; [apply OKR; split; assumption|apply UB; split; assumption].
Qed.
Print Assumptions eesm_largest_torques.
(** An environment with the states, limits and parameters [tune] reads. *)
Definition eesm_ready (e : cenv) : Prop :=
  exists om usd usq tq eps isd isq ie ua p ld lq lm le rs re, str_index "omega" (ce_names e) = Ok om /\ str_index "u_sd" (ce_names e) = Ok usd /\ str_index "u_sq" (ce_names e) = Ok usq /\ str_index "torque" (ce_names e) = Ok tq /\
  str_index "epsilon" (ce_names e) = Ok eps /\ str_index "i_sd" (ce_names e) = Ok isd /\ str_index "i_sq" (ce_names e) = Ok isq /\ str_index "i_e" (ce_names e) = Ok ie /\
  str_index (if str_in "u_a" (ce_names e) then "u_a" else "u_sa") (ce_names e) = Ok ua /\ par "p" (ce_par e) = Ok p /\ par "l_d" (ce_par e) = Ok ld /\ par "l_q" (ce_par e) = Ok lq /\ par "l_m" (ce_par e) = Ok lm /\ par "l_e" (ce_par e) = Ok le /\ par "r_s" (ce_par e) = Ok rs /\ par "r_e" (ce_par e) = Ok re /\
  length (ce_names e) = length (ce_limits e) /\ exists ql, item (ce_limits e) isq = Ok ql /\ 0 < ql.
Lemma roots_last (l : list R) : l <> [] -> exists d, np_at l (-1) = Ok d.
Proof.
  intros NE. destruct l as [|a l]; [contradiction|]. unfold np_at. replace (-1 <? 0)%Z with true by reflexivity. match goal with |- context [nth_error ?l ?k] => destruct (nth_error l k) as [d|] eqn:E end; [|apply nth_error_None in E; cbn [length] in E; lia]. match goal with |- context [if ?b then _ else _] => destruct b eqn:B end; [|eexists; reflexivity]. exfalso. apply Z.ltb_lt in B. cbn [length] in B. lia.
Qed.
Lemma ee_point_ok roots c lim t psi ie : (forall p, roots p <> []) -> exists y, ee_point roots c lim t psi ie = Ok y.
Proof.
  intros HR. unfold ee_point, eesm_solve. destruct (req t 0 && req ie 0).
  - cbn [bind]. cbn zeta. destruct (negb true && _); [eexists; reflexivity|]. destruct (rlt _ lim); eexists; reflexivity.
  - destruct (roots_last _ (HR (eesm_poly c ie psi t))) as (d & ->). cbn [bind]. cbn zeta. destruct (negb false && _); [eexists; reflexivity|]. destruct (rlt _ lim); eexists; reflexivity.
Qed.
Lemma ee_scan_ok roots c lim elim pmax tlim : (forall p, roots p <> []) -> exists scan, ee_scan roots c lim elim pmax tlim = Ok scan.
Proof.
  intros HR. unfold ee_scan. apply mapm_ok. intros t. destruct (mapm_ok (fun psi => do rs <- mapm (ee_point roots c lim t psi) (linspace 0 elim ee_i_count); Ok (somes rs)) (linspace 0 pmax ee_psi_count)) as (l & E).
  - intros psi. destruct (mapm_ok (ee_point roots c lim t psi) (linspace 0 elim ee_i_count)) as (rs & E); [intros ie; apply ee_point_ok; exact HR|]. rewrite E. eexists. reflexivity.
  - rewrite E. eexists. reflexivity.
Qed.
(** the operating point without torque *)
Definition ee_zero : erow := {| er_t := 0; er_psi := 0; er_d := 0; er_q := 0; er_e := 0 |}.
Lemma ee_zero_ok roots c lim elim pmax tlim : 0 < lim -> on_grid elim pmax tlim ee_zero /\ admitted roots c lim ee_zero.
Proof.
  intros HL. split.
  - split; [|split]; exists O; (split; [lia|cbn; ring]).
  - unfold admitted, eesm_solve. cbn [ee_zero er_t er_psi er_d er_q er_e]. destruct (reqP 0 0) as [_|N]; [|contradiction]. split; [reflexivity|]. split; [|left; split; reflexivity]. rewrite Rmult_0_l, Rplus_0_l, sqrt_0. exact HL.
Qed.
Lemma ee_rows_some roots c lim elim pmax tlim scan rs re : ee_scan roots c lim elim pmax tlim = Ok scan -> 0 < lim -> ee_rows rs re scan <> [].
Proof.
  intros H HL Z. destruct (ee_zero_ok roots c lim elim pmax tlim HL) as [G A]. destruct (scan_complete _ _ _ _ _ _ _ _ H G A) as (k & j & y & l & Ey & _ & El & _ & _ & Hx). destruct (ee_best_some rs re (concat (snd y))) as (r & Er). { intros Z'. assert (In ee_zero (concat (snd y))) by (apply in_concat; exists l; split; [eapply nth_error_In; exact El|exact Hx]). rewrite Z' in *. contradiction. }
  assert (I : In r (ee_rows rs re scan)) by (apply in_flat_map; exists y; split; [eapply nth_error_In; exact Ey|rewrite Er; left; reflexivity]). rewrite Z in I. destruct I.
Qed.
(** With a numpy that still has [np.complex] the stage can be tuned in every such environment;
    with any other numpy [tune] raises AttributeError: the stage cannot be used. *)
Theorem eesm_tune_refuted :
  forall tri roots cubic amax damping old e nom margin, eesm_ready e -> margin < 1 -> (forall p, roots p <> []) -> (forall l, exists g, cubic l = Ok g) -> (forall l, exists w, tri l = Ok w) ->
  (exists o m, eesm_tune true tri roots cubic amax damping old e nom margin = Ok (o, m)) /\
  eesm_tune false tri roots cubic amax damping old e nom margin = Err AttributeError.
Proof.
  intros tri roots cubic amax damping old e nom margin (om & usd & usq & tq & eps & isd & isq & ie & ua & p & ld & lq & lm & le & rs & re & E1 & E2 & E3 & E4 & E5 & E6 & E7 & E8 & E9 & E10 & E11 & E12 & E13 & E14 & E15 & E16 & LL & ql & EQ & HQ) Hm HR HC HT.
  assert (IT : forall n i, str_index n (ce_names e) = Ok i -> exists v, item (ce_limits e) i = Ok v). { intros n i Hi. assert (K : (i < length (ce_limits e))%nat). { rewrite <- LL. pose proof (str_index_ok _ _ _ Hi) as N. apply nth_error_Some. rewrite N. discriminate. } destruct (nth_error (ce_limits e) i) as [v|] eqn:Ev; [|apply nth_error_None in Ev; lia]. exists v. unfold item. rewrite Ev. reflexivity. }
  destruct (IT _ _ E6) as (dl & Edl). destruct (IT _ _ E9) as (lu & Elu). destruct (IT _ _ E8) as (el & Eel). destruct (IT _ _ E4) as (tl & Etl).
  assert (FT : exists f0 m, foc_tune amax old e nom margin = Ok (f0, m) /\ fp_isq f0 = isq /\ fp_tq f0 = tq). { unfold foc_tune. rewrite E1, E2, E3, E4, E5, E6, E7, E9, E10. cbn [bind]. rewrite Edl, EQ, Elu. cbn [bind]. do 2 eexists. split; [reflexivity|]. split; reflexivity. }
  destruct FT as (f0 & m & EF & F1 & F2). unfold eesm_tune. rewrite EF. cbn [bind fst snd]. cbn zeta. rewrite E11, E12, E13, E14, E15, E16, E8. cbn [bind]. rewrite Eel, F1, EQ, F2, Etl. cbn [bind].
  match goal with |- context [ee_luts true tri roots cubic ?f ?c rs re ?lim ?elim tl] => set (F := f); set (C := c); set (LIM := lim); set (EL := elim) end. assert (HL : 0 < LIM) by (apply Rmult_lt_0_compat; lra).
  destruct (ee_scan_ok roots C LIM EL (ec_lm C * EL + ec_ld C * LIM) tl HR) as (scan & ES). pose proof (ee_rows_some _ _ _ _ _ _ _ rs re ES HL) as NE.
  assert (MX : exists t, match ee_rows rs re scan with [] => Err IndexError | _ :: _ => np_max (map er_t (ee_rows rs re scan)) end = Ok t). { destruct (ee_rows rs re scan) as [|b l]; [contradiction|]. eexists. reflexivity. } destruct MX as (tm & MX).
  assert (GD : forall pts vals xs ys, exists tab, griddata tri pts vals xs ys = Ok tab). { intros pts vals xs ys. unfold griddata. destruct (HT pts) as (w & ->). eexists. reflexivity. }
  unfold ee_luts. cbn zeta. rewrite ES. cbn [bind]. rewrite MX. cbn [bind].
  repeat match goal with |- context [cubic ?l] => let g := fresh "g" in let E := fresh "E" in destruct (HC l) as (g & E); rewrite E; clear E; cbn [bind] end.
  split; [|reflexivity]. repeat match goal with |- context [griddata tri ?p ?v ?x ?y] => let t := fresh "t" in let E := fresh "E" in destruct (GD p v x y) as (t & E); rewrite E; clear E; cbn [bind] end. do 2 eexists. reflexivity.
Qed.
Print Assumptions eesm_tune_refuted.
(** The quantity called loss weighs the currents, not their squares: of two operating points
    the one with the smaller "loss" can have the larger copper loss. *)
Theorem eesm_loss_refuted :
  forall rs re, 0 < rs -> 0 < re -> exists d q ie d' q' ie', ee_loss rs re d q ie < ee_loss rs re d' q' ie' /\
  3 / 2 * rs * (d' * d' + q' * q') + re * (ie' * ie') < 3 / 2 * rs * (d * d + q * q) + re * (ie * ie).
Proof.
  intros rs re H1 H2. exists 0, 10, 0, (-6), 6, 0. unfold ee_loss. replace (Rabs 10) with 10 by (rewrite Rabs_right; lra). replace (Rabs (-6)) with 6 by (rewrite Rabs_left; lra). replace (Rabs 6) with 6 by (rewrite Rabs_right; lra). rewrite Rabs_R0. split; lra.
Qed.
Print Assumptions eesm_loss_refuted.
Example eesm_ready_example : eesm_ready eesm_ctl_env.
Proof.
  unfold eesm_ready. do 16 eexists. repeat (split; [reflexivity|]). eexists. split; [reflexivity|lra].
Qed.
Definition one_root (p : list R) : list R := [0].
Definition no_tri : triang := fun _ => Ok (fun _ _ => None).
Definition flat_cubic (l : list (R * R)) : res (R -> res R) := Ok (fun _ => Ok 0).
Example eesm_tuned_example : exists o m, eesm_tune true no_tri one_root flat_cubic 1 (12 / 10) None eesm_ctl_env [] (2 / 10) = Ok (o, m) /\
  item (ce_limits eesm_ctl_env) (fp_isq (ee_f o)) = Ok 150 /\ item (ce_limits eesm_ctl_env) (fp_tq (ee_f o)) = Ok 100 /\ 0 < ee_pmax o /\
  exists x, on_grid (150 * (1 - 2 / 10)) (ee_pmax o) 100 x /\ admitted one_root (ee_c o) (150 * (1 - 2 / 10)) x /\ 0 < er_t x.
Proof.
  destruct (eesm_tune_refuted no_tri one_root flat_cubic 1 (12 / 10) None eesm_ctl_env [] (2 / 10) eesm_ready_example ltac:(lra) ltac:(discriminate) ltac:(intros l; eexists; reflexivity) ltac:(intros l; eexists; reflexivity)) as [(o & m & E) _]. exists o, m. split; [exact E|].
  destruct (eesm_tune_inv _ _ _ _ _ _ _ _ _ _ _ _ E) as (f0 & ld & lq & lm & rs & re & il & ie & ql & tl & scan & po & E0 & E1 & E2 & E3 & _ & _ & E7 & E8 & E9 & E10 & X). cbn zeta in X. destruct X as (_ & FO & EC & EPM & _).
  assert (F1 : f0 = fst (match foc_tune 1 None eesm_ctl_env [] (2 / 10) with Ok p => p | Err _ => (f0, m) end)) by (rewrite E0; reflexivity). cbn in F1. rewrite FO, EC, EPM. rewrite F1 in E9, E10 |- *. cbn [foc_fill fp_isq fp_tq fp_p].
  apply ok_inj in E1, E2, E3. subst ld lq lm. assert (il = 4%nat) by (apply ok_inj in E7; symmetry; exact E7). subst il. apply ok_inj in E8. subst ie. cbn [fp_isq] in E9. apply ok_inj in E9. subst ql.
  split; [reflexivity|]. split; [reflexivity|]. split; [lra|]. set (k := 100 / 49). set (iE := 149 * (150 * (1 - 2 / 10) / 149)).
  exists {| er_t := 1 * k; er_psi := 0; er_d := 0; er_q := 2 * (1 * k) / (3 * 3 * (1589 / 1000000 * iE + (166 / 100000 - 35 / 100000) * 0)); er_e := iE |}. split; [|split; [|cbn [er_t]; unfold k; lra]].
  - split; [exists 1%nat; split; [lia|reflexivity]|]. split; [exists 0%nat; split; [lia|cbn; ring]|]. exists 149%nat. split; [lia|]. cbn [er_e]. unfold iE. replace (INR 149) with 149 by (rewrite INR_IZR_INZ; reflexivity). reflexivity.
  - unfold admitted, eesm_solve. cbn [er_t er_psi er_d er_q er_e ec_p ec_lm ec_ld ec_lq]. destruct (reqP (1 * k) 0) as [Z|_]; [unfold k in Z; lra|]. cbn [andb one_root]. change (np_at [0] (-1)) with (Ok 0). cbn [bind]. split; [reflexivity|].
    assert (IV : iE = 120) by (unfold iE; lra). assert (D : 0 < 3 * 3 * (1589 / 1000000 * iE + (166 / 100000 - 35 / 100000) * 0)) by (rewrite IV; lra). split; [|right; lra].
    set (q := 2 * (1 * k) / (3 * 3 * (1589 / 1000000 * iE + (166 / 100000 - 35 / 100000) * 0))). rewrite Rmult_0_l, Rplus_0_l. assert (Q : 0 < q < 120). { split; [apply Rdiv_lt_0_compat; [unfold k; lra|exact D]|]. unfold q. rewrite IV. apply Rmult_lt_reg_r with (3 * 3 * (1589 / 1000000 * 120 + (166 / 100000 - 35 / 100000) * 0)); [lra|]. unfold Rdiv at 1. rewrite Rmult_assoc, Rinv_l by lra. unfold k. lra. } rewrite sqrt_square by lra. lra.
Qed.
