(** The operation point selection of the permanent magnet motor with stored tables: the modes
    "analytical" and "interpolate".  Properties C180, C181.  Source: gem_controllers/stages/
    operation_point_selection/pmsm_ops.py and foc_operation_point_selection.py. *)
From Coq Require Import ZArith Lra Lia.
From Verif Require Import PyBaseFacts PyDictFacts Transform_Model Transform_Proofs Motor_Model Conv_Model Wrap_Model Ctl_Model Ctl_Model2 Ctl_Spec Ctl_Proofs Ctl_Proofs2 Ctl_Props Emf_Props Ops_Model Ops_Proofs Ops_Props Ops_Props2 Ops_Props3 Ops_Props4 Ops_Model2 Ops_Proofs2 Ops_Props6 Ops_Props7.
Local Open Scope string_scope.
Local Open Scope list_scope.
Local Open Scope R_scope.

(** ** The current grid *)
Lemma np_min_spec l v : np_min l = Ok v -> In v l /\ forall x, In x l -> v <= x.
Proof.
  destruct l as [|x l]; [discriminate|]. cbn. intros H. apply ok_inj in H. subst v. revert x. induction l as [|y l IH]; intros x; cbn.
  - split; [left; reflexivity|]. intros z [<-|[]]. lra.
  - destruct (IH (Rmin x y)) as [A B]. split.
    + destruct A as [A|A]; [|right; right; exact A]. rewrite <- A. unfold Rmin. destruct (Rle_dec x y); auto.
    + intros z [<-|[<-|Hz]]; [eapply Rle_trans; [apply B; left; reflexivity|apply Rmin_l]|eapply Rle_trans; [apply B; left; reflexivity|apply Rmin_r]|apply B; right; exact Hz].
Qed.
Lemma np_max_nonempty l : l <> [] -> exists v, np_max l = Ok v.
Proof. destruct l as [|x l]; [contradiction|]. intros _. eexists. reflexivity. Qed.
Lemma np_min_nonempty l : l <> [] -> exists v, np_min l = Ok v.
Proof. destruct l as [|x l]; [contradiction|]. intros _. eexists. reflexivity. Qed.
Lemma pm_grid_in c dl ql d q : In (d, q) (pm_grid c dl ql) -> In d (linspace (- dl) 0 pm_i_count) /\ In q (linspace (- ql) ql (pm_i_count / 2)).
Proof. unfold pm_grid. generalize (linspace (- dl) 0 pm_i_count) (linspace (- ql) ql (pm_i_count / 2)). intros l1 l2 H. apply filter_In in H. destruct H as [H _]. apply in_prod_iff in H. exact H. Qed.
Lemma linspace_bounds a b n x : a <= b -> (1 < n)%nat -> In x (linspace a b n) -> a <= x <= b.
Proof.
  intros H Hn Hx. unfold linspace in Hx. apply in_map_iff in Hx. destruct Hx as (k & <- & Hk). apply in_seq in Hk. assert (K0 : 0 <= INR k) by apply pos_INR. assert (K1 : INR k <= INR (n - 1)) by (apply le_INR; lia). assert (N : 0 < INR (n - 1)) by (apply lt_0_INR; lia).
  assert (P : 0 <= (b - a) / INR (n - 1)) by (apply Rmult_le_pos; [lra|apply Rlt_le, Rinv_0_lt_compat; exact N]). assert (0 <= INR k * ((b - a) / INR (n - 1))) by (apply Rmult_le_pos; assumption). assert (INR k * ((b - a) / INR (n - 1)) <= INR (n - 1) * ((b - a) / INR (n - 1))) by (apply Rmult_le_compat_r; assumption). replace (INR (n - 1) * ((b - a) / INR (n - 1))) with (b - a) in * by (field; lra). lra.
Qed.
Lemma pm_grid_bounds c dl ql d q : 0 <= dl -> 0 <= ql -> In (d, q) (pm_grid c dl ql) -> - dl <= d <= 0 /\ - ql <= q <= ql.
Proof. intros Hd Hq H. apply pm_grid_in in H. destruct H as [A B]. split; [apply (linspace_bounds _ _ pm_i_count); [lra|unfold pm_i_count; lia|exact A]|apply (linspace_bounds _ _ (pm_i_count / 2)); [lra|cbv; lia|exact B]]. Qed.
(** with a permanent magnet, the column of no direct current is in the grid *)
Lemma pm_grid_column c dl ql k : 0 < pc_psi c -> (k < 250)%nat -> In (0, - ql + INR k * ((ql - - ql) / 249)) (pm_grid c dl ql).
Proof.
  intros Hp Hk.
  assert (M1 : In 0 (linspace (- dl) 0 pm_i_count) /\ In (- ql + INR k * ((ql - - ql) / 249)) (linspace (- ql) ql (pm_i_count / 2))).
  { split.
    + pose proof (linspace_nth (- dl) 0 pm_i_count 499 ltac:(unfold pm_i_count; lia)) as X. apply nth_error_In in X. replace (- dl + INR 499 * ((0 - - dl) / INR (pm_i_count - 1))) with 0 in X; [exact X|]. change (pm_i_count - 1)%nat with 499%nat. assert (N : INR 499 <> 0) by (apply not_0_INR; lia). generalize dependent (INR 499). intros z _ N. field. exact N.
    + pose proof (linspace_nth (- ql) ql (pm_i_count / 2) k ltac:(change (pm_i_count / 2)%nat with 250%nat; exact Hk)) as X. apply nth_error_In in X. replace (INR (pm_i_count / 2 - 1)) with 249 in X by (rewrite INR_IZR_INZ; reflexivity). exact X. }
  unfold pm_grid. revert M1. generalize (linspace (- dl) 0 pm_i_count) (linspace (- ql) ql (pm_i_count / 2)). intros l1 l2 [M1 M2]. apply filter_In. split.
  - apply in_prod_iff. split; assumption.
  - clear M1 M2. generalize (- ql + INR k * ((ql - - ql) / 249)). intros q. cbn [fst snd]. cbn zeta. rewrite Rmult_0_l, Rplus_0_r. destruct (req (pc_ld c) (pc_lq c)); [destruct (rltP 0 (pc_psi c)); [reflexivity|contradiction]|]. set (z := _ * pc_lq c). assert (S1 : np_sign (pc_psi c) = 1) by (unfold np_sign; destruct (rltP (pc_psi c) 0); [lra|]; destruct (rltP 0 (pc_psi c)); [reflexivity|contradiction]). rewrite S1. pose proof (Rle_0_sqr z) as Z. unfold Rsqr in Z. assert (0 < pc_psi c * pc_psi c) by (apply Rmult_lt_0_compat; assumption).
    match goal with |- rlt ?a ?b = true => destruct (rltP a b) as [_|N]; [reflexivity|exfalso; lra] end.
Qed.
Lemma pm_range_ok c dl ql : 0 < pc_psi c -> 0 < pc_p c -> 0 < pc_lq c -> 0 < ql -> exists t0 t1 p0 p1, pm_range c (pm_grid c dl ql) = Ok (t0, t1, p0, p1) /\
  t0 <= - (pc_p c * (15 / 10) * pc_psi c * ql) /\ pc_p c * (15 / 10) * pc_psi c * ql <= t1 /\ p0 < p1.
Proof.
  intros Hp Hpp Hl Hq. pose proof (pm_grid_column c dl ql 0 Hp ltac:(lia)) as G0. pose proof (pm_grid_column c dl ql 249 Hp ltac:(lia)) as G1. pose proof (pm_grid_column c dl ql 125 Hp ltac:(lia)) as G2.
  replace (- ql + INR 0 * ((ql - - ql) / 249)) with (- ql) in G0 by (change (INR 0) with 0; ring). replace (- ql + INR 249 * ((ql - - ql) / 249)) with ql in G1 by (replace (INR 249) with 249 by (rewrite INR_IZR_INZ; reflexivity); field). replace (- ql + INR 125 * ((ql - - ql) / 249)) with (ql / 249) in G2 by (replace (INR 125) with 125 by (rewrite INR_IZR_INZ; reflexivity); field).
  set (g := pm_grid c dl ql) in *. clearbody g. unfold pm_range. assert (NE : forall f : R * R -> R, map f g <> []) by (intros f N; apply map_eq_nil in N; rewrite N in G0; destruct G0).
  destruct (np_min_nonempty _ (NE (pm_grid_t c))) as (t0 & E0). destruct (np_max_nonempty _ (NE (pm_grid_t c))) as (t1 & E1). destruct (np_min_nonempty _ (NE (pm_grid_psi c))) as (p0 & E2). destruct (np_max_nonempty _ (NE (pm_grid_psi c))) as (p1 & E3). rewrite E0, E1, E2, E3. cbn [bind]. exists t0, t1, p0, p1. split; [reflexivity|].
  destruct (np_min_spec _ _ E0) as [_ B0]. destruct (np_max_spec _ _ E1) as [_ B1]. destruct (np_min_spec _ _ E2) as [_ B2]. destruct (np_max_spec _ _ E3) as [_ B3]. apply (in_map (pm_grid_t c)) in G0. specialize (B0 _ G0). pose proof (B1 _ (in_map (pm_grid_t c) _ _ G1)) as C1. pose proof (B2 _ (in_map (pm_grid_psi c) _ _ G2)) as C2. pose proof (B3 _ (in_map (pm_grid_psi c) _ _ G1)) as C3. unfold pm_grid_t, pm_grid_psi in *. cbn [fst snd] in *.
  split; [rewrite Rmult_0_r, Rplus_0_r in B0; lra|]. split; [rewrite Rmult_0_r, Rplus_0_r in C1; lra|]. eapply Rle_lt_trans; [exact C2|]. eapply Rlt_le_trans; [|exact C3]. assert (Z : 0 < pc_lq c * ql) by (apply Rmult_lt_0_compat; assumption). assert (ZZ : 0 < pc_lq c * ql * (pc_lq c * ql)) by (apply Rmult_lt_0_compat; assumption). pose proof (Rle_0_sqr (pc_ld c * 0 + pc_psi c)) as Y. unfold Rsqr in Y. replace (pc_lq c * (ql / 249)) with (pc_lq c * ql / 249) by lra. set (w := pc_lq c * ql) in *.
  apply sqrt_lt_1; [|lra|]; replace (w / 249 * (w / 249)) with (w * w / (249 * 249)) by lra; lra.
Qed.
Lemma pm_range_order c g t0 t1 p0 p1 : pm_range c g = Ok (t0, t1, p0, p1) -> t0 <= t1 /\ p0 <= p1.
Proof.
  intros H. unfold pm_range in H. apply bind_ok in H. destruct H as (a & A & H). apply bind_ok in H. destruct H as (b & B & H). apply bind_ok in H. destruct H as (p & C & H). apply bind_ok in H. destruct H as (q & D & H). apply ok_inj in H. assert (X : a = t0 /\ b = t1 /\ p = p0 /\ q = p1) by (repeat split; congruence). destruct X as (-> & -> & -> & ->).
  destruct (np_min_spec _ _ A) as [A1 _]. destruct (np_max_spec _ _ B) as [_ B1]. destruct (np_min_spec _ _ C) as [C1 _]. destruct (np_max_spec _ _ D) as [_ D1]. split; [apply B1, A1|apply D1, C1].
Qed.
(** ** Building the tables *)
Lemma pmsm_tune2_inv cplx tri roots mode amax damping old e nom margin o lu m : pmsm_tune2 cplx tri roots mode amax damping old e nom margin = Ok (o, lu, m) ->
  pmsm_tune amax damping old e nom margin = Ok (o, m) /\ exists dl ql, item (ce_limits e) (fp_isd (q_f o)) = Ok dl /\ item (ce_limits e) (fp_isq (q_f o)) = Ok ql /\ pm_lut cplx tri roots mode (q_c o) dl ql = Ok lu.
Proof.
  intros H. unfold pmsm_tune2 in H. apply bind_ok in H. destruct H as ([o1 m1] & E & H). cbn [fst snd] in H. cbn zeta in H. apply bind_ok in H. destruct H as (dl & Ed & H). apply bind_ok in H. destruct H as (ql & Eq & H). apply bind_ok in H. destruct H as (lu1 & El & H). apply ok_inj in H. apply pair_equal_spec in H. destruct H as [H <-]. apply pair_equal_spec in H. destruct H as [<- <-].
  split; [exact E|]. exists dl, ql. auto.
Qed.
Definition shape {A} (tab : list (list A)) : Prop := length tab = pm_t_count /\ forall r, In r tab -> length r = pm_psi_count.
(** An entry of the tables: the torque of its row, the flux of its column, the two currents. *)
Definition entry (l : lut) (i j : Z) (t psi : R) (d q : nan) : Prop :=
  np_at (linspace (lu_tmin l) (lu_tmax l) pm_t_count) i = Ok t /\ np_at (linspace (lu_pmin l) (lu_pmax l) pm_psi_count) j = Ok psi /\ tab_at (lu_d l) i j = Ok d /\ tab_at (lu_q l) i j = Ok q.
Lemma np_at_map {A B} (f : A -> B) l z y : np_at (map f l) z = Ok y -> exists x, np_at l z = Ok x /\ y = f x.
Proof. intros Hy. unfold np_at in *. rewrite map_length in Hy. destruct ((if (z <? 0)%Z then Z.of_nat (length l) + z else z) <? 0)%Z; [discriminate|]. rewrite nth_error_map in Hy. destruct (nth_error l _) as [x|] eqn:Ex; [|discriminate]. cbn in Hy. apply ok_inj in Hy. exists x. split; [reflexivity|symmetry; exact Hy]. Qed.
Lemma np_at_mapm {A B} (f : A -> res B) l r z y : mapm f l = Ok r -> np_at r z = Ok y -> exists x, np_at l z = Ok x /\ f x = Ok y.
Proof.
  intros H Hy. destruct (mapm_spec _ _ _ H) as [L S]. unfold np_at in *. rewrite L in Hy. destruct ((if (z <? 0)%Z then Z.of_nat (length l) + z else z) <? 0)%Z; [discriminate|]. destruct (nth_error r _) as [y'|] eqn:E; [|discriminate]. apply ok_inj in Hy. subst y'. match type of E with nth_error r ?k = _ => assert (K : (k < length r)%nat) by (apply nth_error_Some; rewrite E; discriminate); destruct (nth_error l k) as [x|] eqn:X; [|apply nth_error_None in X; lia]; destruct (S k x X) as (y' & F & N) end. rewrite E in N. apply some_inj in N. subst y'. exists x. split; [reflexivity|exact F].
Qed.
Lemma mapm_length {A B} (f : A -> res B) l r : mapm f l = Ok r -> length r = length l.
Proof. intros H. apply (mapm_spec _ _ _ H). Qed.
Lemma table2 {A B C} (f : A -> B -> res C) ts ps tab : mapm (fun t => mapm (f t) ps) ts = Ok tab -> (length tab = length ts /\ forall r, In r tab -> length r = length ps) /\
  forall i j t psi x, np_at ts i = Ok t -> np_at ps j = Ok psi -> tab_at tab i j = Ok x -> f t psi = Ok x.
Proof.
  intros T. split.
  - split; [exact (mapm_length _ _ _ T)|]. intros r Hr. destruct (mapm_in _ _ _ _ T Hr) as (t & _ & Er). exact (mapm_length _ _ _ Er).
  - intros i j t psi x Ht Hp X. unfold tab_at in X. apply bind_ok in X. destruct X as (r & Rr & X). destruct (np_at_mapm _ _ _ _ _ T Rr) as (t' & Et & M). rewrite Ht in Et. apply ok_inj in Et. subst t'. destruct (np_at_mapm _ _ _ _ _ M X) as (psi' & Ep & S). rewrite Hp in Ep. apply ok_inj in Ep. subst psi'. exact S.
Qed.
Lemma tab_at_map {A B} (f : A -> B) tab i j y : tab_at (map (map f) tab) i j = Ok y -> exists x, tab_at tab i j = Ok x /\ y = f x.
Proof. intros H. unfold tab_at in *. apply bind_ok in H. destruct H as (r & Rr & H). apply np_at_map in Rr. destruct Rr as (r' & -> & ->). cbn [bind]. apply np_at_map in H. exact H. Qed.
(** In the mode "analytical" the two tables have 250 rows of 250 entries, and each entry
    solves the torque equation for the torque of its row. *)
Lemma analytical_entries cplx tri roots c dl ql l : pm_lut cplx tri roots Analytical c dl ql = Ok (Some l) -> shape (lu_d l) /\ shape (lu_q l) /\ pm_range c (pm_grid c dl ql) = Ok (lu_tmin l, lu_tmax l, lu_pmin l, lu_pmax l) /\
  forall i j t psi d q, entry l i j t psi d q -> exists d' q', d = Some d' /\ q = Some q' /\ solve_analytical roots c t psi = Ok (d', q').
Proof.
  unfold pm_lut. generalize (pm_range c (pm_grid c dl ql)). intros rg H. apply bind_ok in H. destruct H as ([[[t0 t1] p0] p1] & E & H). apply bind_ok in H. destruct H as (tab & T & H). unfold analytical_table in T. pose proof (linspace_length t0 t1 pm_t_count) as L1. pose proof (linspace_length p0 p1 pm_psi_count) as L2. apply ok_inj in H. apply some_inj in H.
  unfold entry. rewrite <- H. clear H. cbn [lu_tmin lu_tmax lu_pmin lu_pmax lu_d lu_q]. revert T L1 L2. generalize (linspace t0 t1 pm_t_count) (linspace p0 p1 pm_psi_count). intros ts ps T L1 L2. apply (table2 (solve_analytical roots c) ts ps tab) in T. destruct T as [[A B] C].
  assert (SM : forall f : R * R -> nan, shape (map (map f) tab)). { intros f. split; [rewrite map_length, <- L1; exact A|]. intros r Hr. apply in_map_iff in Hr. destruct Hr as (r' & <- & Hr). rewrite map_length, <- L2. apply B, Hr. }
  split; [apply SM|]. split; [apply SM|]. split; [exact E|]. intros i j t psi d q (Ht & Hpsi & Hd & Hq). apply tab_at_map in Hd. destruct Hd as (x & X & ->). apply tab_at_map in Hq. destruct Hq as (x' & X' & ->). rewrite X in X'. apply ok_inj in X'. subst x'. exists (fst x), (snd x). rewrite <- surjective_pairing. split; [reflexivity|]. split; [reflexivity|]. exact (C _ _ _ _ _ Ht Hpsi X).
Qed.
(** In the mode "interpolate" each entry is a mean of grid points, or both currents are nan. *)
Lemma interpolate_entries cplx tri roots c dl ql l : tri_ok tri -> 0 <= dl -> 0 <= ql -> pm_lut cplx tri roots Interpolate c dl ql = Ok (Some l) -> shape (lu_d l) /\ shape (lu_q l) /\ pm_range c (pm_grid c dl ql) = Ok (lu_tmin l, lu_tmax l, lu_pmin l, lu_pmax l) /\
  forall i j d q, tab_at (lu_d l) i j = Ok d -> tab_at (lu_q l) i j = Ok q -> (d = None /\ q = None) \/ exists d' q', d = Some d' /\ q = Some q' /\ - dl <= d' <= 0 /\ - ql <= q' <= ql.
Proof.
  intros TR Hdl Hql. assert (BB : forall x, In x (pm_grid c dl ql) -> - dl <= fst x <= 0 /\ - ql <= snd x <= ql) by (intros [a b] Hx; exact (pm_grid_bounds c dl ql a b Hdl Hql Hx)). unfold pm_lut. revert BB. generalize (pm_grid c dl ql). intros g BB. generalize (pm_range c g). intros rg H. apply bind_ok in H. destruct H as ([[[t0 t1] p0] p1] & E & H). destruct cplx; [|discriminate]. cbn zeta in H. pose proof (linspace_length t0 t1 pm_t_count) as L1. pose proof (linspace_length p0 p1 pm_psi_count) as L2. revert H L1 L2. generalize (linspace t0 t1 pm_t_count) (linspace p0 p1 pm_psi_count). intros ts ps H L1 L2. apply bind_ok in H. destruct H as (tq & Gq & H). apply bind_ok in H. destruct H as (td & Gd & H). apply ok_inj in H. apply some_inj in H. rewrite <- H. clear H. cbn [lu_tmin lu_tmax lu_pmin lu_pmax lu_d lu_q].
  assert (SG : forall vals tab, griddata tri (map (fun x => (pm_grid_t c x, pm_grid_psi c x)) g) vals ts ps = Ok tab -> shape tab). { intros vals tab G. destruct (griddata_shape _ _ _ _ _ _ G) as [L1' L2']. split; [rewrite L1'; exact L1|]. intros r Hr. rewrite (L2' r Hr). exact L2. }
  split; [exact (SG _ _ Gd)|]. split; [exact (SG _ _ Gq)|]. split; [exact E|]. intros i j d q Td Tq. destruct (griddata_at _ _ _ _ _ _ _ _ _ Gd Td) as (w & x & y & Ew & Ex & Ey & ->). destruct (griddata_at _ _ _ _ _ _ _ _ _ Gq Tq) as (w' & x' & y' & Ew' & Ex' & Ey' & ->). rewrite Ew in Ew'. apply ok_inj in Ew'. subst w'. rewrite Ex in Ex'. apply ok_inj in Ex'. subst x'. rewrite Ey in Ey'. apply ok_inj in Ey'. subst y'.
  destruct (w x y) as [ws|] eqn:W; [right|left; split; reflexivity]. destruct (TR _ _ _ _ _ Ew W) as (LW & FW & SW). rewrite map_length in LW. do 2 eexists. split; [reflexivity|]. split; [reflexivity|].
  pose proof (dot_le ws (map fst g) 0 ltac:(rewrite map_length; exact LW) FW) as D1. pose proof (dot_ge ws (map fst g) (- dl) ltac:(rewrite map_length; exact LW) FW) as D2. pose proof (dot_le ws (map snd g) ql ltac:(rewrite map_length; exact LW) FW) as Q1. pose proof (dot_ge ws (map snd g) (- ql) ltac:(rewrite map_length; exact LW) FW) as Q2. rewrite SW in *.
  assert (IM : forall f : R * R -> R, forall v, In v (map f g) -> exists x, In x g /\ v = f x) by (intros f v Hv; apply in_map_iff in Hv; destruct Hv as (z & <- & Hz); exists z; auto).
  specialize (D1 ltac:(intros v Hv; destruct (IM _ _ Hv) as (z & Hz & ->); destruct (BB z Hz); lra)). specialize (D2 ltac:(intros v Hv; destruct (IM _ _ Hv) as (z & Hz & ->); destruct (BB z Hz); lra)). specialize (Q1 ltac:(intros v Hv; destruct (IM _ _ Hv) as (z & Hz & ->); destruct (BB z Hz); lra)). specialize (Q2 ltac:(intros v Hv; destruct (IM _ _ Hv) as (z & Hz & ->); destruct (BB z Hz); lra)). lra.
Qed.
Lemma grid_idx_ok x lo hi : lo < hi -> exists k, (k < 250)%nat /\ grid_idx x lo hi 250 = Ok (Z.of_nat k) /\ Rabs (lo + INR k * ((hi - lo) / 249) - np_clip x lo hi) <= (hi - lo) / 498.
Proof.
  intros H. unfold grid_idx. destruct (reqP (hi - lo) 0) as [Z|_]; [lra|]. assert (B := np_clip_both x lo hi ltac:(lra)). set (v := np_clip x lo hi) in *. clearbody v. change (250 - 1)%nat with 249%nat. assert (I : 0 < / (hi - lo)) by (apply Rinv_0_lt_compat; lra). assert (Q : 0 <= (v - lo) / (hi - lo) <= 1). { split; [apply Rmult_le_pos; lra|]. rewrite <- (Rinv_r (hi - lo)) by lra. apply Rmult_le_compat_r; lra. }
  assert (N249 : INR 249 = 249) by (rewrite INR_IZR_INZ; reflexivity). set (y := (v - lo) / (hi - lo) * INR 249) in *. assert (Y : 0 <= y <= INR 249) by (unfold y; rewrite N249; lra). pose proof (py_round_range y 249 Y) as RR. pose proof (py_round_near y) as NN. exists (Z.to_nat (py_round y)). split; [lia|]. split; [rewrite Z2Nat.id by lia; reflexivity|]. rewrite INR_IZR_INZ, Z2Nat.id by lia.
  replace (lo + IZR (py_round y) * ((hi - lo) / 249) - v) with ((hi - lo) / 249 * (IZR (py_round y) - y)) by (unfold y; rewrite N249; field; lra). rewrite Rabs_mult, (Rabs_pos_eq ((hi - lo) / 249)) by lra. eapply Rle_trans; [apply Rmult_le_compat_l; [lra|exact NN]|]. lra.
Qed.
(** ** Building the tables, per mode *)
Lemma solve_ok roots c t psi : roots (pmsm_poly c t psi) <> [] -> exists x, solve_analytical roots c t psi = Ok x.
Proof.
  intros NE. unfold solve_analytical. destruct (roots (pmsm_poly c t psi)) as [|a l]; [contradiction|]. unfold np_at. replace (-1 <? 0)%Z with true by reflexivity. cbn [length]. match goal with |- context [if ?b then _ else _] => destruct b eqn:B end; [apply Z.ltb_lt in B; lia|]. match goal with |- context [nth_error ?l ?k] => destruct (nth_error l k) as [d|] eqn:E end; [cbn [bind]; eexists; reflexivity|apply nth_error_None in E; cbn [length] in E; lia].
Qed.
Lemma mapm_total {A B} (f : A -> res B) l : (forall x, exists y, f x = Ok y) -> exists r, mapm f l = Ok r.
Proof. intros H. induction l as [|x l (r & IH)]; [exists []; reflexivity|]. cbn [mapm]. destruct (H x) as (y & ->). rewrite IH. cbn [bind]. eexists. reflexivity. Qed.
(** With a permanent magnet: "online" needs no table, "analytical" always finds one, an unknown
    mode is refused, and "interpolate" works exactly with a numpy that still has np.complex. *)
Theorem pmsm_table_modes_refuted :
  forall cplx tri roots amax damping old e nom margin psi p lq iq ql, sync_ready e -> dict_get "psi_p" (ce_par e) = Some psi -> 0 < psi -> par "p" (ce_par e) = Ok p -> 0 < p -> par "l_q" (ce_par e) = Ok lq -> 0 < lq ->
  str_index "i_sq" (ce_names e) = Ok iq -> item (ce_limits e) iq = Ok ql -> 0 < ql -> (forall c, roots c <> []) -> (forall pts, exists w, tri pts = Ok w) ->
  (exists o m, pmsm_tune2 cplx tri roots Online amax damping old e nom margin = Ok (o, None, m)) /\
  (exists o l m, pmsm_tune2 cplx tri roots Analytical amax damping old e nom margin = Ok (o, Some l, m) /\ lu_tmin l < 0 < lu_tmax l /\ lu_pmin l < lu_pmax l) /\
  pmsm_tune2 cplx tri roots OtherMode amax damping old e nom margin = Err NotImplementedError /\
  pmsm_tune2 false tri roots Interpolate amax damping old e nom margin = Err AttributeError /\
  (exists o l m, pmsm_tune2 true tri roots Interpolate amax damping old e nom margin = Ok (o, Some l, m) /\ lu_tmin l < 0 < lu_tmax l /\ lu_pmin l < lu_pmax l).
Proof.
  intros cplx tri roots amax damping old e nom margin psi p lq iq ql R E1 H1 E2 H2 E3 H3 E4 E5 H5 HR HT. destruct (sync_tune_succeeds amax damping old e nom margin R) as (o & m & E). destruct (pmsm_tune_inv _ _ _ _ _ _ _ _ E) as (f0 & dl & ql' & F0 & _ & Q0 & _ & _ & _ & _ & P & PSI & _ & LQ & _). rewrite E1 in PSI. rewrite E3 in LQ. apply ok_inj in LQ.
  assert (FI : fp_isq (q_f o) = fp_isq f0 /\ fp_isd (q_f o) = fp_isd f0) by (destruct (pmsm_tune_fields _ _ _ _ _ _ _ _ _ _ E F0) as (_ & _ & _ & _ & _ & X & Y & _); auto).
  assert (FQ : fp_p f0 = p /\ fp_isq f0 = iq /\ exists v, item (ce_limits e) (fp_isd f0) = Ok v). { unfold foc_tune in F0. repeat match type of F0 with bind _ _ = Ok _ => let x := fresh "x" in let X := fresh "X" in apply bind_ok in F0; destruct F0 as (x & X & F0) end. apply ok_inj in F0. apply pair_equal_spec in F0. destruct F0 as [<- _]. cbn [fp_p fp_isq fp_isd]. repeat split; try congruence. eexists; eassumption. }
  destruct FQ as (FP & FQ & v & FD). destruct FI as [FI1 FI2]. rewrite FP in P.
  assert (I1 : item (ce_limits e) (fp_isd (q_f o)) = Ok v) by (rewrite FI2; exact FD). assert (I2 : item (ce_limits e) (fp_isq (q_f o)) = Ok ql) by (rewrite FI1, FQ; exact E5).
  destruct (pm_range_ok (q_c o) v ql ltac:(rewrite PSI; exact H1) ltac:(rewrite P; exact H2) ltac:(rewrite <- LQ; exact H3) H5) as (t0 & t1 & p0 & p1 & RG & B0 & B1 & B2). rewrite P, PSI in B0, B1. assert (TP : 0 < p * (15 / 10) * psi * ql) by (repeat apply Rmult_lt_0_compat; lra).
  unfold pmsm_tune2. rewrite E. cbn [bind fst snd]. cbn zeta. rewrite I1, I2. cbn [bind]. unfold pm_lut. cbn zeta. rewrite RG. cbn [bind]. clear RG. generalize (pm_grid (q_c o) v ql). intros g. unfold analytical_table. generalize (linspace t0 t1 pm_t_count) (linspace p0 p1 pm_psi_count). intros ts ps.
  split; [do 2 eexists; reflexivity|]. split.
  { destruct (mapm_total (fun t => mapm (fun psi => solve_analytical roots (q_c o) t psi) ps) ts) as (tab & ->); [intros t; apply mapm_total; intros x; apply solve_ok, HR|]. cbn [bind]. do 3 eexists. split; [reflexivity|]. cbn [lu_tmin lu_tmax lu_pmin lu_pmax]. split; [lra|exact B2]. }
  split; [reflexivity|]. split; [reflexivity|]. unfold griddata. destruct (HT (map (fun x => (pm_grid_t (q_c o) x, pm_grid_psi (q_c o) x)) g)) as (w & ->). cbn [bind]. do 3 eexists. split; [reflexivity|]. cbn [lu_tmin lu_tmax lu_pmin lu_pmax]. split; [lra|exact B2].
Qed.
Print Assumptions pmsm_table_modes_refuted.
(** ** The selection *)
Lemma select_lut_cases l o m x r rest m' out : pmsm_select_lut l o m x (r :: rest) = (m', Ok out) ->
  exists row rf psi t d q, np_at (q_mtpc o) (t_idx_mtpc o r) = Ok row /\ In rf (q_mtpf o) /\ t = (if rlt (Rabs (pr_t rf)) (Rabs r) then np_sign r * Rabs (pr_t rf) else r) /\ lut_point l row rf t psi = Ok (d, q) /\ out = [d; nan_scale (q_inv o) q].
Proof.
  intros H. unfold pmsm_select_lut in H. cbn [item nth_error bind] in H. destruct (np_at (q_mtpc o) (t_idx_mtpc o r)) as [row|] eqn:Er; cbn [bind] in H; [|apply pair_equal_spec in H; destruct H; discriminate]. destruct (modulation (q_f o) m x) as [m1 pm]. apply pair_equal_spec in H. destruct H as [_ H]. apply bind_ok in H. destruct H as (pmx & _ & H). cbn zeta in H. apply bind_ok in H. destruct H as (rf & Erf & H). apply bind_ok in H. destruct H as ([d q] & El & H). apply ok_inj in H. cbn [fst snd] in H.
  exists row, rf, (Rmin (pr_psi row) pmx). eexists. exists d, q. split; [reflexivity|]. split; [exact (np_at_in _ _ _ Erf)|]. split; [reflexivity|]. split; [exact El|]. symmetry. exact H.
Qed.
Lemma lut_point_cases l row rf t psi a b : lut_point l row rf t psi = Ok (a, b) -> exists ti pi d q, grid_idx t (lu_tmin l) (lu_tmax l) pm_t_count = Ok ti /\ grid_idx psi (lu_pmin l) (lu_pmax l) pm_psi_count = Ok pi /\ tab_at (lu_d l) ti pi = Ok d /\ tab_at (lu_q l) ti pi = Ok q /\
  ((a = Some (pr_d rf) /\ b = Some (np_sign t * Rabs (pr_q rf))) \/ (pr_d rf <= pr_d row /\ a = Some (pr_d row) /\ b = Some (np_sign t * Rabs (pr_q row))) \/ (a = d /\ b = q /\ forall v, d = Some v -> pr_d rf < v <= pr_d row)).
Proof.
  intros H. unfold lut_point in H. apply bind_ok in H. destruct H as (ti & Et & H). apply bind_ok in H. destruct H as (pi & Ep & H). apply bind_ok in H. destruct H as (d & Ed & H). apply bind_ok in H. destruct H as (q & Eq & H). exists ti, pi, d, q. do 4 (split; [assumption|]).
  destruct d as [v|]; cbn [nan_le nan_gt] in H.
  - destruct (rleP v (pr_d rf)) as [A|A]; [apply ok_inj in H; apply pair_equal_spec in H; destruct H as [<- <-]; left; split; reflexivity|]. destruct (rltP (pr_d row) v) as [B|B]; cbn [fst nan_lt] in H.
    + destruct (rltP (pr_d row) (pr_d rf)) as [C|C]; apply ok_inj in H; apply pair_equal_spec in H; destruct H as [<- <-]; [left; split; reflexivity|right; left; repeat split; lra].
    + destruct (rltP v (pr_d rf)) as [C|C]; [lra|]. apply ok_inj in H; apply pair_equal_spec in H; destruct H as [<- <-]. right. right. split; [reflexivity|]. split; [reflexivity|]. intros w W. apply some_inj in W. subst w. lra.
  - cbn [fst nan_lt] in H. apply ok_inj in H; apply pair_equal_spec in H; destruct H as [<- <-]. right. right. split; [reflexivity|]. split; [reflexivity|]. intros w W. discriminate.
Qed.
(** With the analytical table the currents give the demanded torque up to a grid step, or the
    largest torque the flux allows, never in the wrong direction. *)
Theorem pmsm_analytical_torque :
  forall cplx tri roots amax damping old e nom margin o l m0 m x r rest m' out pm dl, pmsm_tune2 cplx tri roots Analytical amax damping old e nom margin = Ok (o, Some l, m0) ->
  pc_p (q_c o) = pm_p pm -> pc_ld (q_c o) = pm_ld pm -> pc_lq (q_c o) = pm_lq pm -> pc_psi (q_c o) = pm_psi pm -> 0 < pm_p pm -> 0 < pm_psi pm -> 0 < pm_ld pm <= pm_lq pm -> 0 <= fp_dlim (q_f o) -> 0 < fp_qlim (q_f o) -> item (ce_limits e) (fp_isd (q_f o)) = Ok dl -> 0 <= dl ->
  lu_tmin l < lu_tmax l -> 0 < q_maxt o -> Rabs r <= q_maxt o -> pmsm_select_lut l o m x (r :: rest) = (m', Ok out) ->
  exists d q T, out = [Some d; Some q] /\ pmsm_torque pm [d; q] = Ok T /\
    (Rabs (T - r) <= q_maxt o / 249 \/ (exists rf, In rf (q_mtpf o) /\ T = np_sign r * Rabs (pr_t rf)) \/
     exists t, (t = r \/ exists rf, In rf (q_mtpf o) /\ Rabs (pr_t rf) < Rabs r /\ t = np_sign r * Rabs (pr_t rf)) /\ Rabs (T - np_clip t (lu_tmin l) (lu_tmax l)) <= (lu_tmax l - lu_tmin l) / 498).
Proof.
  intros cplx tri roots amax damping old e nom margin o l m0 m x r rest m' out pm dl H2' H1 H2 H3 H4 Hp Hpsi Hl HD HQ Hdl Hdl0 HTT HM Hr HS. destruct (pmsm_tune2_inv _ _ _ _ _ _ _ _ _ _ _ _ _ H2') as (H & dl2 & ql2 & _ & _ & HL). apply analytical_entries in HL. destruct HL as (_ & _ & RG & EN).
  destruct (select_lut_cases _ _ _ _ _ _ _ _ HS) as (row & rf & psi & t & a & b & Erow & IN & Et & El & Eo). destruct (mtpc_nearest _ _ _ _ _ _ _ _ _ _ H HM Hr Erow) as (t0 & dl' & ql & Rrow & _ & Edl & _ & Hnear). rewrite Hdl in Edl. apply ok_inj in Edl. subst dl'.
  destruct (pmsm_tune_inv _ _ _ _ _ _ _ _ H) as (f0 & dl1 & ql1 & _ & _ & _ & _ & _ & F1 & F2 & _ & _ & _ & _ & _ & TF & _ & INV). rewrite <- F1, <- F2 in TF.
  assert (I : q_inv o = 1). { rewrite INV, H4. destruct (reqP (pm_psi pm) 0) as [N|_]; [lra|reflexivity]. }
  rewrite <- H1 in Hp. rewrite <- H2, <- H3 in Hl. rewrite <- H4 in Hpsi.
  assert (DEN : forall a, a <= 0 -> 0 < pc_psi (q_c o) + (pc_ld (q_c o) - pc_lq (q_c o)) * a) by (intros a0 A; assert (0 <= (pc_lq (q_c o) - pc_ld (q_c o)) * - a0) by (apply Rmult_le_pos; lra); lra).
  assert (GF := IN). rewrite TF in GF. apply (mtpf_table_good (q_c o) _ _ Hpsi ltac:(lra) ltac:(lra) Hp HD HQ) in GF. destruct GF as [GD GT]. unfold torque_of in GT.
  destruct (mtpc_row_pmsm (q_c o) dl ql t0 row Hpsi ltac:(lra) Hp Hdl0 Rrow) as [Rt [RD RT]]. unfold torque_of in RT. rewrite Rt in RT.
  assert (TC : (t = r /\ Rabs r <= Rabs (pr_t rf)) \/ (Rabs (pr_t rf) < Rabs r /\ t = np_sign r * Rabs (pr_t rf))) by (rewrite Et; destruct (rltP (Rabs (pr_t rf)) (Rabs r)); [right|left]; split; try reflexivity; lra).
  assert (SG : np_sign t = np_sign r \/ (r <> 0 /\ t = 0 /\ pr_t rf = 0)).
  { destruct TC as [[-> _]|[A ->]]; [left; reflexivity|]. destruct (Req_dec (pr_t rf) 0) as [Z|NZ]; [right; split; [intros R0; rewrite R0, Z, Rabs_R0 in A; lra|split; [rewrite Z, Rabs_R0; ring|exact Z]]|left]. rewrite Rmult_comm, sign_pos_mul by (apply Rabs_pos_lt; exact NZ). unfold np_sign. destruct (rltP r 0) as [B|B]; [destruct (rltP (-1) 0); lra|]. destruct (rltP 0 r) as [D|D]; [destruct (rltP 1 0); destruct (rltP 0 1); lra|destruct (rltP 0 0); lra]. }
  assert (S0 : np_sign 0 = 0) by (unfold np_sign; destruct (rltP 0 0); lra).
  assert (OUT : forall y, y = q_inv o * y) by (intros y; rewrite I; ring).
  assert (SA : forall y, 0 <= y -> forall q, y * Rabs q = Rabs (y * q)) by (intros y Y q; rewrite Rabs_mult, (Rabs_pos_eq y Y); reflexivity).
  set (K := fun d => 15 / 10 * pc_p (q_c o) * (pc_psi (q_c o) + (pc_ld (q_c o) - pc_lq (q_c o)) * d)). assert (KP : forall d, d <= 0 -> 0 < K d) by (intros d D; unfold K; apply Rmult_lt_0_compat; [lra|apply DEN; exact D]).
  assert (TQ : forall d q, pmsm_torque pm [d; q] = Ok (K d * q)) by (intros d q; unfold pmsm_torque, K; cbn [item nth_error bind]; rewrite <- H1, <- H2, <- H3, <- H4; reflexivity).
  assert (GT' : pr_t rf = K (pr_d rf) * pr_q rf) by (rewrite GT; unfold K; lra). assert (RT' : t0 = K (pr_d row) * pr_q row) by (rewrite RT; unfold K; lra).
  destruct (lut_point_cases _ _ _ _ _ _ _ El) as (ti & pi & d & q & Gt & Gp & Td & Tq & [[-> ->]|[(_ & -> & ->)|(-> & -> & BD)]]).
  - exists (pr_d rf), (np_sign t * Rabs (pr_q rf)), (np_sign t * Rabs (pr_t rf)). split; [rewrite Eo; cbn [nan_scale]; rewrite <- OUT; reflexivity|]. split; [rewrite TQ; f_equal; rewrite GT', <- (SA _ (Rlt_le _ _ (KP _ GD))); ring|]. right. left. exists rf. split; [exact IN|]. destruct SG as [->|(_ & -> & ->)]; [reflexivity|]. rewrite Rabs_R0. ring.
  - exists (pr_d row), (np_sign t * Rabs (pr_q row)), (np_sign t * Rabs t0). split; [rewrite Eo; cbn [nan_scale]; rewrite <- OUT; reflexivity|]. split; [rewrite TQ; f_equal; rewrite RT', <- (SA _ (Rlt_le _ _ (KP _ RD))); ring|]. destruct SG as [->|(_ & -> & Z)].
    + left. eapply Rle_trans; [|exact Hnear]. assert (X : r = np_sign r * Rabs r) by (symmetry; apply sign_abs). destruct (Req_dec r 0) as [Z|NZ]; [rewrite Z, S0; rewrite Rmult_0_l, Rminus_0_r, Rabs_R0; apply Rabs_pos|]. replace (np_sign r * Rabs t0 - r) with (np_sign r * (Rabs t0 - Rabs r)) by lra. rewrite Rabs_mult. assert (NS : Rabs (np_sign r) = 1) by (unfold np_sign; destruct (rltP r 0); [rewrite Rabs_left; lra|]; destruct (rltP 0 r); [apply Rabs_R1|lra]). rewrite NS, Rmult_1_l. apply Rabs_triang_inv2.
    + right. left. exists rf. split; [exact IN|]. rewrite S0, Z, Rabs_R0. ring.
  - destruct (grid_idx_ok t (lu_tmin l) (lu_tmax l) HTT) as (k & Hk & Ek & NK). change 250%nat with pm_t_count in Ek, Hk. rewrite Ek in Gt. apply ok_inj in Gt. subst ti. pose proof (linspace_nth (lu_tmin l) (lu_tmax l) pm_t_count k Hk) as NT. apply np_at_nat in NT.
    assert (EP : exists psi', np_at (linspace (lu_pmin l) (lu_pmax l) pm_psi_count) pi = Ok psi').
    { unfold grid_idx in Gp. destruct (reqP (lu_pmax l - lu_pmin l) 0) as [Z|NZ]; [discriminate|]. apply ok_inj in Gp. assert (LT : lu_pmin l < lu_pmax l \/ lu_pmax l < lu_pmin l) by (apply Rdichotomy; lra). destruct LT as [LT|LT].
      - destruct (grid_idx_ok psi (lu_pmin l) (lu_pmax l) LT) as (j & Hj & Ej & _). unfold grid_idx in Ej. destruct (reqP (lu_pmax l - lu_pmin l) 0) as [Z|_]; [contradiction|]. apply ok_inj in Ej. change 250%nat with pm_psi_count in Ej. rewrite Ej in Gp. subst pi. eexists. apply np_at_nat, linspace_nth. exact Hj.
      - exfalso. destruct (pm_range_order _ _ _ _ _ _ RG) as [_ PO]. lra. }
    destruct EP as (psi' & EP). destruct (EN (Z.of_nat k) pi _ psi' d q (conj NT (conj EP (conj Td Tq)))) as (d' & q' & -> & -> & S). unfold solve_analytical in S. apply bind_ok in S. destruct S as (dd & _ & S). apply ok_inj in S. apply pair_equal_spec in S. destruct S as [-> Sq]. destruct (BD d' eq_refl) as [B1 B2].
    exists d', q', (K d' * q'). split; [rewrite Eo; cbn [nan_scale]; rewrite <- OUT; reflexivity|]. split; [apply TQ|]. right. right. exists t. split; [destruct TC as [[A _]|[A B]]; [left; exact A|right; exists rf; auto]|].
    assert (DD := DEN d' ltac:(lra)). replace (INR (pm_t_count - 1)) with 249 in Sq by (rewrite INR_IZR_INZ; reflexivity). set (tt := lu_tmin l + INR k * ((lu_tmax l - lu_tmin l) / 249)) in *. assert (TE : K d' * q' = tt) by (rewrite <- Sq; unfold K; field; split; lra). rewrite TE. exact NK.
Qed.
Print Assumptions pmsm_analytical_torque.
(** With interpolated tables (an old numpy) the references are a row of the stored curves, a
    point of the box the current limits span, or not numbers, both together. *)
Theorem pmsm_interpolated_references :
  forall cplx tri roots amax damping old e nom margin o l m0 m x r rest m' out dl ql, tri_ok tri -> pmsm_tune2 cplx tri roots Interpolate amax damping old e nom margin = Ok (o, Some l, m0) ->
  item (ce_limits e) (fp_isd (q_f o)) = Ok dl -> item (ce_limits e) (fp_isq (q_f o)) = Ok ql -> 0 <= dl -> 0 <= ql -> pmsm_select_lut l o m x (r :: rest) = (m', Ok out) ->
  out = [None; None] \/ exists d q, out = [Some d; Some q] /\ (((exists y, In y (q_mtpc o ++ q_mtpf o) /\ d = pr_d y /\ (Rabs q = Rabs (pr_q y) \/ q = 0))) \/ (- dl <= d <= 0 /\ Rabs q <= ql)).
Proof.
  intros cplx tri roots amax damping old e nom margin o l m0 m x r rest m' out dl ql TR H2 Hdl Hql Pd Pq HS. destruct (pmsm_tune2_inv _ _ _ _ _ _ _ _ _ _ _ _ _ H2) as (H & dl2 & ql2 & D2 & Q2 & HL). rewrite Hdl in D2. rewrite Hql in Q2. apply ok_inj in D2, Q2. subst dl2 ql2. apply (interpolate_entries _ _ _ _ _ _ _ TR Pd Pq) in HL. destruct HL as (_ & _ & _ & EN).
  destruct (pmsm_tune_inv _ _ _ _ _ _ _ _ H) as (f0 & dl1 & ql1 & _ & _ & _ & _ & _ & _ & _ & _ & _ & _ & _ & _ & _ & _ & INV). assert (I : q_inv o = 1 \/ q_inv o = -1) by (rewrite INV; destruct (_ && _); auto).
  assert (AI : forall y, Rabs (q_inv o * y) = Rabs y) by (intros y; rewrite Rabs_mult; assert (A : Rabs (q_inv o) = 1) by (destruct I as [-> | ->]; [apply Rabs_R1|rewrite Rabs_left; lra]); rewrite A; ring).
  assert (SQ : forall t y, Rabs (q_inv o * (np_sign t * Rabs y)) = Rabs y \/ q_inv o * (np_sign t * Rabs y) = 0). { intros t y. unfold np_sign. destruct (rltP t 0); [left|destruct (rltP 0 t); [left|right; ring]]; rewrite AI, Rabs_mult, Rabs_Rabsolu; [rewrite Rabs_left by lra; ring|rewrite Rabs_R1; ring]. }
  destruct (select_lut_cases _ _ _ _ _ _ _ _ HS) as (row & rf & psi & t & a & b & Erow & IN & Et & El & Eo). apply np_at_in in Erow.
  destruct (lut_point_cases _ _ _ _ _ _ _ El) as (ti & pi & d & q & Gt & Gp & Td & Tq & [[-> ->]|[(_ & -> & ->)|(-> & -> & BD)]]).
  - right. cbn [nan_scale] in Eo. do 2 eexists. split; [exact Eo|]. left. exists rf. split; [apply in_or_app; right; exact IN|]. split; [reflexivity|apply SQ].
  - right. cbn [nan_scale] in Eo. do 2 eexists. split; [exact Eo|]. left. exists row. split; [apply in_or_app; left; exact Erow|]. split; [reflexivity|apply SQ].
  - destruct (EN _ _ _ _ Td Tq) as [[-> ->]|(d' & q' & -> & -> & B1 & B2)]; [left; exact Eo|right]. cbn [nan_scale] in Eo. do 2 eexists. split; [exact Eo|]. right. split; [exact B1|]. rewrite AI. unfold Rabs. destruct (Rcase_abs q'); lra.
Qed.
Print Assumptions pmsm_interpolated_references.
Fixpoint lut_runs (l : lut) (o : pmsm_ops) (m : fmod) (h : list (list R * list R)) : list (res (list nan)) :=
  match h with [] => [] | (x, r) :: rest => let (m', out) := pmsm_select_lut l o m x r in out :: lut_runs l o m' rest end.
Lemma lut_point_ok l row rf t psi : shape (lu_d l) -> shape (lu_q l) -> lu_tmin l < lu_tmax l -> lu_pmin l < lu_pmax l -> exists d q, lut_point l row rf t psi = Ok (d, q).
Proof.
  intros [A1 A2] [B1 B2] HT HP. unfold lut_point. destruct (grid_idx_ok t _ _ HT) as (k & Hk & Ek & _). destruct (grid_idx_ok psi _ _ HP) as (j & Hj & Ej & _). change pm_t_count with 250%nat in *. change pm_psi_count with 250%nat in *. rewrite Ek, Ej. cbn [bind].
  destruct (tab_at_ok (lu_d l) 250 250 (Z.of_nat k) (Z.of_nat j) A1 A2 ltac:(lia) ltac:(lia)) as (d & ->). destruct (tab_at_ok (lu_q l) 250 250 (Z.of_nat k) (Z.of_nat j) B1 B2 ltac:(lia) ltac:(lia)) as (q & ->). cbn [bind].
  destruct (nan_le d (pr_d rf)); [do 2 eexists; reflexivity|]. match goal with |- context [Ok ?y] => destruct y as [d1 q1] end. do 2 eexists. reflexivity.
Qed.
Lemma lut_shape cplx tri roots mode c dl ql l : tri_ok tri -> 0 <= dl -> 0 <= ql -> pm_lut cplx tri roots mode c dl ql = Ok (Some l) -> shape (lu_d l) /\ shape (lu_q l).
Proof.
  intros TR Pd Pq H. destruct mode.
  - exfalso. revert H. unfold pm_lut. generalize (pm_range c (pm_grid c dl ql)). intros rg H. apply bind_ok in H. destruct H as ([[[a b] p] q] & _ & X). discriminate X.
  - destruct (analytical_entries _ _ _ _ _ _ _ H) as (A & B & _). split; assumption.
  - destruct (interpolate_entries _ _ _ _ _ _ _ TR Pd Pq H) as (A & B & _). split; assumption.
  - exfalso. revert H. unfold pm_lut. generalize (pm_range c (pm_grid c dl ql)). intros rg H. apply bind_ok in H. destruct H as ([[[a b] p] q] & _ & X). discriminate X.
Qed.
Lemma select_lut_ok amax damping old e nom margin o m0 L l : pmsm_tune amax damping old e nom margin = Ok (o, m0) -> (pc_psi (q_c o) <> 0 \/ 0 < pc_ld (q_c o)) -> fp_dlim (q_f o) = L -> fp_qlim (q_f o) = L -> 0 < L -> 0 < q_maxt o -> shape (lu_d l) -> shape (lu_q l) -> lu_tmin l < lu_tmax l -> lu_pmin l < lu_pmax l ->
  forall m x t rest i usd usq w, reads (q_f o) x usd usq w -> fm_int m = Some i -> Rabs t <= q_maxt o ->
  exists m' d q i', pmsm_select_lut l o m x (t :: rest) = (m', Ok [d; q]) /\ fm_int m' = Some i'.
Proof.
  intros H C H1 H2 HL HM S1 S2 HT HP m x t rest i usd usq w Hx Hi Ht. destruct (sync_select_ok _ _ _ _ _ _ _ _ L H C H1 H2 HL HM (fun _ => [0]) m x t rest i usd usq w ltac:(discriminate) Hx Hi Ht) as (m' & d & q & i' & E & Hi'). unfold pmsm_select in E. unfold pmsm_select_lut. cbn [item nth_error bind] in E |- *. destruct (np_at (q_mtpc o) (t_idx_mtpc o t)) as [row|]; cbn [bind] in E |- *; [|apply pair_equal_spec in E; destruct E; discriminate]. destruct (modulation (q_f o) m x) as [m1 pm]. apply pair_equal_spec in E. destruct E as [-> E]. apply bind_ok in E. destruct E as (pmx & -> & E). cbn zeta in E. apply bind_ok in E. destruct E as (rf & Erf & _). cbn [bind]. cbn zeta. rewrite Erf. cbn [bind].
    match goal with |- context [lut_point l row rf ?a ?b] => destruct (lut_point_ok l row rf a b S1 S2 HT HP) as (d1 & q1 & ->) end. cbn [bind fst snd]. do 4 eexists. split; [reflexivity|exact Hi'].
Qed.
(** Tuned with a table and reset, no sequence of calls with references in the table's range raises. *)
Theorem pmsm_table_selection_never_raises :
  forall cplx tri roots mode amax damping old e nom margin o l m0 L, pmsm_tune2 cplx tri roots mode amax damping old e nom margin = Ok (o, Some l, m0) -> (pc_psi (q_c o) <> 0 \/ 0 < pc_ld (q_c o)) -> fp_dlim (q_f o) = L -> fp_qlim (q_f o) = L -> 0 < L -> 0 < q_maxt o -> tri_ok tri ->
  (forall dl, item (ce_limits e) (fp_isd (q_f o)) = Ok dl -> 0 <= dl) -> (forall ql, item (ce_limits e) (fp_isq (q_f o)) = Ok ql -> 0 <= ql) -> lu_tmin l < lu_tmax l -> lu_pmin l < lu_pmax l ->
  forall h, (forall x r, In (x, r) h -> (exists usd usq w, reads (q_f o) x usd usq w) /\ exists t rest, r = t :: rest /\ Rabs t <= q_maxt o) ->
  forall out, In out (lut_runs l o (foc_reset (q_f o) m0) h) -> exists d q, out = Ok [d; q].
Proof.
  intros cplx tri roots mode amax damping old e nom margin o l m0 L H2 C H1' H2' HL HM TR Pd Pq HT HP. destruct (pmsm_tune2_inv _ _ _ _ _ _ _ _ _ _ _ _ _ H2) as (H & dl & ql & D & Q & HLU).
  pose proof (lut_shape _ _ _ _ _ _ _ _ TR (Pd _ D) (Pq _ Q) HLU) as SH.
  destruct SH as [S1 S2]. assert (HI : exists i, fm_int (foc_reset (q_f o) m0) = Some i) by (eexists; reflexivity). intros h. revert HI. generalize (foc_reset (q_f o) m0). induction h as [|[x r] h IH]; intros m (i & Hi) Hl out Ho; [destruct Ho|].
  destruct (Hl x r (or_introl eq_refl)) as [(usd & usq & w & Hx) (t & rest & -> & Ht)].
  assert (ST : exists m' d q i', pmsm_select_lut l o m x (t :: rest) = (m', Ok [d; q]) /\ fm_int m' = Some i').
  { exact (select_lut_ok _ _ _ _ _ _ _ _ L l H C H1' H2' HL HM S1 S2 HT HP m x t rest i usd usq w Hx Hi Ht). }
  destruct ST as (m' & d & q & i' & E & Hi'). cbn [lut_runs] in Ho. rewrite E in Ho. destruct Ho as [<-|Ho]; [exists d, q; reflexivity|]. apply (IH m' (ex_intro _ i' Hi') (fun y s Hy => Hl y s (or_intror Hy)) out Ho).
Qed.
Print Assumptions pmsm_table_selection_never_raises.
(** ** The hypotheses are met *)
Example pmsm_table_example : exists o l m0, pmsm_tune2 false first_tri (fun _ => [0]) Analytical (11 / 10) (12 / 10) None pmsm_env sync_state (2 / 10) = Ok (o, Some l, m0) /\ lu_tmin l < lu_tmax l /\ lu_pmin l < lu_pmax l /\ pmsm_tune (11 / 10) (12 / 10) None pmsm_env sync_state (2 / 10) = Ok (o, m0) /\
  0 < fp_dlim (q_f o) /\ fp_dlim (q_f o) = fp_qlim (q_f o) /\ 40 <= q_maxt o /\ item (ce_limits pmsm_env) (fp_isd (q_f o)) = Ok 100 /\ item (ce_limits pmsm_env) (fp_isq (q_f o)) = Ok 100 /\ reads (q_f o) sync_state 5 6 100 /\ pc_psi (q_c o) = 1 / 15 /\
  exists m' d q, pmsm_select_lut l o (foc_reset (q_f o) m0) sync_state [30] = (m', Ok [d; q]).
Proof.
  destruct (sync_tuned_example pmsm_env (or_introl eq_refl)) as (R & o & m & H & P1 & P2 & P3 & P4 & P5 & P6 & P7 & _).
  destruct (pmsm_table_modes_refuted false first_tri (fun _ => [0]) (11 / 10) (12 / 10) None pmsm_env sync_state (2 / 10) (1 / 15) 3 (1 / 1000) 3 100 R eq_refl ltac:(lra) eq_refl ltac:(lra) eq_refl ltac:(lra) eq_refl eq_refl ltac:(lra) ltac:(discriminate) ltac:(intros pts; eexists; reflexivity)) as (_ & (o' & l & m0 & T & B1 & B2) & _).
  destruct (pmsm_tune2_inv _ _ _ _ _ _ _ _ _ _ _ _ _ T) as (T' & _). rewrite H in T'. apply ok_inj in T'. apply pair_equal_spec in T'. destruct T' as [<- <-].
  assert (B0 : lu_tmin l < lu_tmax l) by lra. exists o, l, m. split; [exact T|]. split; [exact B0|]. split; [exact B2|]. split; [exact H|]. rewrite P2, P3. split; [lra|]. split; [reflexivity|]. split; [exact P4|]. split; [exact P6|]. split; [exact P5|]. split; [exact P7|]. split; [exact P1|].
  destruct (pmsm_select_lut l o (foc_reset (q_f o) m) sync_state [30]) as [m' out] eqn:E. assert (N := pmsm_table_selection_never_raises _ _ _ _ _ _ _ _ _ _ _ _ _ _ T ltac:(left; rewrite P1; cbn; lra) eq_refl ltac:(rewrite P3, P2; reflexivity) ltac:(rewrite P2; lra) ltac:(lra) first_tri_ok ltac:(intros a A; rewrite P6 in A; apply ok_inj in A; lra) ltac:(intros a A; rewrite P5 in A; apply ok_inj in A; lra) B0 B2 [(sync_state, [30])]).
  destruct (N ltac:(intros y s [Y|[]]; apply pair_equal_spec in Y; destruct Y as [<- <-]; split; [exists 5, 6, 100; exact P7|exists 30, []; split; [reflexivity|rewrite Rabs_pos_eq; lra]]) out ltac:(cbn [lut_runs]; rewrite E; left; reflexivity)) as (d & q & ->). exists m', d, q. reflexivity.
Qed.
