(** Lemmas on rounding, tables and the operation point selection of the induction motor. *)
From Verif Require Import PyBaseFacts PyDictFacts Transform_Model Motor_Model Conv_Model Ctl_Model Ctl_Proofs Ctl_Proofs2 Ops_Model.
From Coq Require Import ZArith Lra Lia.
Local Open Scope string_scope. Local Open Scope list_scope. Local Open Scope R_scope.

Lemma py_round_near x : Rabs (IZR (py_round x) - x) <= 1 / 2.
Proof.
  unfold py_round. destruct (base_Int_part x) as [A B]. set (z := Int_part x) in *.
  destruct (rltP (x - IZR z) (1 / 2)) as [C|C]; [unfold Rabs; destruct (Rcase_abs _); lra|]. destruct (rltP (1 / 2) (x - IZR z)) as [D|D]; [rewrite plus_IZR; unfold Rabs; destruct (Rcase_abs _); lra|].
  destruct (Z.even z); [|rewrite plus_IZR]; unfold Rabs; destruct (Rcase_abs _); lra.
Qed.
Lemma py_round_range x n : 0 <= x <= INR n -> (0 <= py_round x <= Z.of_nat n)%Z.
Proof.
  intros H. pose proof (py_round_near x) as N. assert (N' : - (1 / 2) <= IZR (py_round x) - x <= 1 / 2) by (unfold Rabs in N; destruct (Rcase_abs _) in N; lra). rewrite INR_IZR_INZ in H. split.
  - assert (X : IZR (-1) < IZR (py_round x)) by lra. apply lt_IZR in X. lia.
  - assert (X : IZR (py_round x) < IZR (Z.of_nat n + 1)) by (rewrite plus_IZR; lra). apply lt_IZR in X. lia.
Qed.
Lemma py_round_INR n : py_round (INR n) = Z.of_nat n.
Proof.
  pose proof (py_round_near (INR n)) as N. assert (N' : - (1 / 2) <= IZR (py_round (INR n)) - INR n <= 1 / 2) by (unfold Rabs in N; destruct (Rcase_abs _) in N; lra). rewrite INR_IZR_INZ in N'.
  assert (X : IZR (py_round (INR n)) < IZR (Z.of_nat n + 1)) by (rewrite plus_IZR, <- INR_IZR_INZ in *; lra). assert (Y : IZR (Z.of_nat n - 1) < IZR (py_round (INR n))) by (rewrite minus_IZR, <- INR_IZR_INZ in *; lra). apply lt_IZR in X, Y. lia.
Qed.
Lemma np_at_ok {A} (l : list A) z : (0 <= z < Z.of_nat (length l))%Z -> exists x, np_at l z = Ok x /\ nth_error l (Z.to_nat z) = Some x.
Proof.
  intros H. unfold np_at. assert (E : (z <? 0)%Z = false) by (apply Z.ltb_ge; lia). rewrite E, E. destruct (nth_error l (Z.to_nat z)) as [x|] eqn:N; [exists x; split; reflexivity|]. apply nth_error_None in N. lia.
Qed.
Lemma np_at_nat {A} (l : list A) k x : nth_error l k = Some x -> np_at l (Z.of_nat k) = Ok x.
Proof. intros H. unfold np_at. assert (E : (Z.of_nat k <? 0)%Z = false) by (apply Z.ltb_ge; lia). rewrite E, E, Nat2Z.id, H. reflexivity. Qed.
Lemma linspace_length a b n : length (linspace a b n) = n.
Proof. unfold linspace. rewrite map_length. apply seq_length. Qed.
Lemma nth_error_seq n s k : (k < n)%nat -> nth_error (seq s n) k = Some (s + k)%nat.
Proof. revert s k. induction n as [|n IH]; intros s k H; [lia|]. destruct k as [|k]; cbn; [rewrite Nat.add_0_r; reflexivity|]. rewrite IH by lia. f_equal. lia. Qed.
Lemma linspace_nth a b n k : (k < n)%nat -> nth_error (linspace a b n) k = Some (a + INR k * ((b - a) / INR (n - 1))).
Proof. intros H. unfold linspace. apply (map_nth_error (fun k : nat => a + INR k * ((b - a) / INR (n - 1)))). rewrite (nth_error_seq n 0 k H). reflexivity. Qed.
Lemma mapm_spec {A B} (f : A -> res B) l r : mapm f l = Ok r -> length r = length l /\ forall k x, nth_error l k = Some x -> exists y, f x = Ok y /\ nth_error r k = Some y.
Proof.
  revert r. induction l as [|x l IH]; intros r H; cbn in H.
  - injection H as <-. split; [reflexivity|]. intros [|k] y Hk; discriminate.
  - apply bind_ok in H. destruct H as (y & Ey & H). apply bind_ok in H. destruct H as (ys & Eys & H). injection H as <-. destruct (IH ys Eys) as [L N]. split; [cbn; rewrite L; reflexivity|]. intros [|k] z Hk; cbn in *; [injection Hk as <-; exists y; auto|apply N; exact Hk].
Qed.
(** The first position of the minimum. *)
Lemma argmin_from_spec l : forall best bi i, (bi < i)%nat -> let r := argmin_from best bi i l in
  (r = bi /\ (forall x, In x l -> best <= x)) \/ (exists k v, r = (i + k)%nat /\ nth_error l k = Some v /\ v < best /\ forall x, In x l -> v <= x).
Proof.
  induction l as [|x l IH]; intros best bi i Hi; cbn.
  - left. split; [reflexivity|]. intros x [].
  - destruct (rltP x best) as [A|A].
    + destruct (IH x i (S i) ltac:(lia)) as [[E N]|(k & v & E & Nk & Hv & N)].
      * right. exists 0%nat, x. split; [rewrite E; lia|]. split; [reflexivity|]. split; [exact A|]. intros y [<-|Hy]; [lra|apply N; exact Hy].
      * right. exists (S k), v. split; [rewrite E; lia|]. split; [exact Nk|]. split; [lra|]. intros y [<-|Hy]; [lra|apply N; exact Hy].
    + destruct (IH best bi (S i) ltac:(lia)) as [[E N]|(k & v & E & Nk & Hv & N)].
      * left. split; [exact E|]. intros y [<-|Hy]; [lra|apply N; exact Hy].
      * right. exists (S k), v. split; [rewrite E; lia|]. split; [exact Nk|]. split; [exact Hv|]. intros y [<-|Hy]; [lra|apply N; exact Hy].
Qed.
Lemma argmin_spec l : l <> [] -> exists k v, argmin l = Ok k /\ nth_error l k = Some v /\ forall x, In x l -> v <= x.
Proof.
  destruct l as [|x l]; [congruence|]. intros _. cbn. destruct (argmin_from_spec l x 0 1 ltac:(lia)) as [[E N]|(k & v & E & Nk & Hv & N)].
  - exists 0%nat, x. split; [rewrite E; reflexivity|]. split; [reflexivity|]. intros y [<-|Hy]; [lra|apply N; exact Hy].
  - exists (S k), v. split; [rewrite E; reflexivity|]. split; [exact Nk|]. intros y [<-|Hy]; [lra|apply N; exact Hy].
Qed.
Lemma np_max_spec l v : np_max l = Ok v -> In v l /\ forall x, In x l -> x <= v.
Proof.
  destruct l as [|x l]; [discriminate|]. cbn. intros H. injection H as <-. revert x. induction l as [|y l IH]; intros x; cbn.
  - split; [left; reflexivity|]. intros z [<-|[]]. lra.
  - destruct (IH (Rmax x y)) as [A B]. split.
    + destruct A as [A|A]; [|right; right; exact A]. rewrite <- A. unfold Rmax. destruct (Rle_dec x y); auto.
    + assert (M : Rmax x y <= fold_left Rmax l (Rmax x y)) by (apply B; left; reflexivity). intros z [<-|[<-|Hz]]; [eapply Rle_trans; [apply Rmax_l|exact M]|eapply Rle_trans; [apply Rmax_r|exact M]|apply B; right; exact Hz].
Qed.
Lemma np_clip_both x lo hi : lo <= hi -> lo <= np_clip x lo hi <= hi.
Proof. intros H. split; [apply np_clip_lb; exact H|apply np_clip_ub]. Qed.

(** ** The induction motor *)
Lemma scim_currents_circle s t psi d : 0 <= fp_dlim (s_f s) -> 0 <= fp_qlim (s_f s) -> - fp_dlim (s_f s) <= d <= fp_dlim (s_f s) ->
  forall q, scim_currents s t psi d = Some q -> d * d + q * q <= fp_dlim (s_f s) * fp_dlim (s_f s) /\ Rabs q <= fp_qlim (s_f s).
Proof.
  intros Hd Hq HD q H. unfold scim_currents in H. destruct t as [t|]; [|discriminate]. set (q0 := np_clip _ _ _) in H. assert (Q0 : - fp_qlim (s_f s) <= q0 <= fp_qlim (s_f s)) by (apply np_clip_both; lra).
  set (L := fp_dlim (s_f s)) in *. assert (DD0 : 0 <= (L - d) * (L + d)) by (apply Rmult_le_pos; lra). assert (DD : d * d <= L * L) by lra.
  destruct (rltP L (sqrt (q0 * q0 + d * d))) as [A|A].
  - unfold np_sqrt in H. destruct (rltP (L * L - d * d) 0) as [B|B]; [lra|]. injection H as <-. assert (S : sqrt (L * L - d * d) * sqrt (L * L - d * d) = L * L - d * d) by (apply sqrt_sqrt; lra). pose proof (sqrt_pos (L * L - d * d)) as SP.
    assert (A' : L * L < q0 * q0 + d * d). { assert (P : 0 <= q0 * q0 + d * d) by (pose proof (Rle_0_sqr q0); pose proof (Rle_0_sqr d); unfold Rsqr in *; lra). rewrite <- (sqrt_sqrt (q0 * q0 + d * d) P). apply Rmult_le_0_lt_compat; lra. }
    assert (SQ : sqrt (L * L - d * d) <= Rabs q0). { apply Rsqr_incr_0; [|exact SP|apply Rabs_pos]. unfold Rsqr. rewrite S. replace (Rabs q0 * Rabs q0) with (q0 * q0) by (unfold Rabs; destruct (Rcase_abs q0); ring). lra. }
    assert (RQ : Rabs q0 <= fp_qlim (s_f s)) by (unfold Rabs; destruct (Rcase_abs q0); lra).
    unfold np_sign. destruct (rltP q0 0) as [C|C]; [|destruct (rltP 0 q0) as [C'|C']].
    + split; [replace (-1 * sqrt (L * L - d * d) * (-1 * sqrt (L * L - d * d))) with (sqrt (L * L - d * d) * sqrt (L * L - d * d)) by ring; lra|]. rewrite Rabs_mult, (Rabs_left (-1)) by lra. rewrite (Rabs_pos_eq (sqrt _)) by exact SP. lra.
    + rewrite !Rmult_1_l. rewrite (Rabs_pos_eq (sqrt _)) by exact SP. split; lra.
    + rewrite !Rmult_0_l, Rabs_R0. split; lra.
  - injection H as <-. split; [|unfold Rabs; destruct (Rcase_abs q0); lra]. assert (P : 0 <= q0 * q0 + d * d) by (pose proof (Rle_0_sqr q0); pose proof (Rle_0_sqr d); unfold Rsqr in *; lra). assert (A' : sqrt (q0 * q0 + d * d) <= L) by lra. rewrite Rplus_comm. rewrite <- (sqrt_sqrt (q0 * q0 + d * d) P). apply Rmult_le_compat; try lra; apply sqrt_pos.
Qed.
Lemma scim_currents_some s t psi d : - fp_dlim (s_f s) <= d <= fp_dlim (s_f s) -> exists q, scim_currents s (Some t) psi d = Some q.
Proof.
  intros HD. unfold scim_currents. destruct (rlt _ _); [|eexists; reflexivity]. unfold np_sqrt. destruct (rltP (fp_dlim (s_f s) * fp_dlim (s_f s) - d * d) 0) as [B|B]; [|eexists; reflexivity]. exfalso. pose proof (Rmult_le_pos (fp_dlim (s_f s) - d) (fp_dlim (s_f s) + d) ltac:(lra) ltac:(lra)). lra.
Qed.
Lemma map2_map {A B C} (f : A -> B -> C) (g : A -> B) l : map2 f l (map g l) = map (fun x => f x (g x)) l.
Proof. induction l as [|x l IH]; [reflexivity|]. cbn. rewrite IH. reflexivity. Qed.
Lemma tl_linspace_nth a b n k : (k < n - 1)%nat -> nth_error (tl (linspace a b n)) k = Some (a + INR (S k) * ((b - a) / INR (n - 1))).
Proof. intros H. pose proof (linspace_nth a b n (S k) ltac:(lia)) as E. destruct (linspace a b n) as [|x l]; [discriminate|]. exact E. Qed.
(** A row of the flux table: the grid current one below the one with the least losses. *)
Lemma psi_opt_row_spec c ilim t : t <> 0 -> exists row k, psi_opt_row c ilim t = Ok row /\ (k < 499)%nat /\
  let grid j := INR j * (ilim / 499) in
  sr_t row = t /\ sr_d row = grid k /\ sr_psi row = sc_lm c * grid k /\ sr_q row = scim_isq c t (grid (S k)) /\
  forall j, (1 <= j < 500)%nat -> scim_loss c (grid (S k)) (scim_isq c t (grid (S k))) <= scim_loss c (grid j) (scim_isq c t (grid j)).
Proof.
  intros Ht. unfold psi_opt_row. destruct (reqP t 0) as [Z|_]; [contradiction|]. cbn zeta.
  assert (G : forall j, (j < 499)%nat -> nth_error (tl (linspace 0 ilim scim_i_count)) j = Some (INR (S j) * (ilim / 499))).
  { intros j Hj. rewrite tl_linspace_nth by (unfold scim_i_count; lia). unfold scim_i_count. replace (INR (500 - 1)) with 499 by (cbn [Nat.sub]; rewrite INR_IZR_INZ; reflexivity). f_equal. rewrite Rminus_0_r. ring. }
  assert (LT : length (tl (linspace 0 ilim scim_i_count)) = 499%nat). { pose proof (linspace_length 0 ilim scim_i_count) as L. destruct (linspace 0 ilim scim_i_count); [discriminate|]. cbn in L |- *. unfold scim_i_count in L. lia. }
  rewrite map2_map. destruct (argmin_spec (map (fun x => scim_loss c x (scim_isq c t x)) (tl (linspace 0 ilim scim_i_count)))) as (k & v & Ek & Nk & Min).
  { intros E. apply (f_equal (@length R)) in E. rewrite map_length, LT in E. discriminate. }
  rewrite Ek. cbn [bind]. assert (Hk : (k < 499)%nat). { assert (L := proj1 (nth_error_Some _ _) ltac:(rewrite Nk; discriminate)). rewrite map_length, LT in L. exact L. }
  pose proof (G k Hk) as Gk. assert (Nv : scim_loss c (INR (S k) * (ilim / 499)) (scim_isq c t (INR (S k) * (ilim / 499))) = v) by (rewrite (map_nth_error _ _ _ Gk) in Nk; congruence).
  assert (I1 : item (linspace 0 ilim scim_i_count) k = Ok (INR k * (ilim / 499))).
  { unfold item. rewrite linspace_nth by (unfold scim_i_count; lia). unfold scim_i_count. replace (INR (500 - 1)) with 499 by (cbn [Nat.sub]; rewrite INR_IZR_INZ; reflexivity). apply f_equal. rewrite Rminus_0_r. ring. }
  assert (I2 : item (map (scim_isq c t) (tl (linspace 0 ilim scim_i_count))) k = Ok (scim_isq c t (INR (S k) * (ilim / 499)))).
  { unfold item. rewrite (map_nth_error (scim_isq c t) _ _ Gk). reflexivity. }
  rewrite I1. cbn [bind]. rewrite I2. cbn [bind]. eexists. exists k. split; [reflexivity|]. split; [exact Hk|]. cbn [sr_t sr_d sr_psi sr_q]. repeat (split; [reflexivity|]).
  cbn beta zeta. intros j Hj. rewrite Nv. apply Min. apply in_map_iff. exists (INR j * (ilim / 499)). split; [reflexivity|]. apply (nth_error_In _ (j - 1)). rewrite G by lia. replace (S (j - 1)) with j by lia. reflexivity.
Qed.
Lemma psi_opt_row_ok c ilim t : exists row, psi_opt_row c ilim t = Ok row.
Proof.
  destruct (Req_dec t 0) as [Z|Z].
  - unfold psi_opt_row. rewrite Z. destruct (reqP 0 0) as [_|N]; [|contradiction]. eexists; reflexivity.
  - destruct (psi_opt_row_spec c ilim t Z) as (row & k & E & _). exists row. exact E.
Qed.
Lemma mapm_ok {A B} (f : A -> res B) l : (forall x, exists y, f x = Ok y) -> exists r, mapm f l = Ok r.
Proof. intros H. induction l as [|x l (r & IH)]; [eexists; reflexivity|]. cbn. destruct (H x) as (y & ->). cbn [bind]. rewrite IH. eexists; reflexivity. Qed.
Lemma psi_opt_table_ok c il a b : exists tab, psi_opt_table c il a b = Ok tab /\ length tab = scim_t_count.
Proof.
  destruct (mapm_ok (psi_opt_row c il) (linspace a b scim_t_count) (psi_opt_row_ok c il)) as (r & E). exists r. split; [exact E|]. destruct (mapm_spec _ _ _ E) as [L _]. rewrite L. apply linspace_length.
Qed.
Lemma t_max_table_length c u w p : length (t_max_table c u w p) = (2 * scim_psi_count)%nat.
Proof. unfold t_max_table, t_max_half. rewrite app_length, !map_length, rev_length, map_length, linspace_length. lia. Qed.
(** The entry the stage looks up for the table index [g]. *)
Lemma t_max_lookup c u w p g : (0 <= g <= 999)%nat -> forall x, np_at (t_max_table c u w p) (Z.of_nat scim_psi_count - Z.of_nat g) = Ok x ->
  (g = 0%nat /\ nth_error (t_max_half c u w p) 999 = Some (nan_opp x)) \/ ((1 <= g)%nat /\ nth_error (t_max_half c u w p) (1000 - g) = Some x).
Proof.
  intros Hg x H. replace (Z.of_nat scim_psi_count - Z.of_nat g)%Z with (Z.of_nat (1000 - g)) in H by (unfold scim_psi_count; lia).
  assert (L : length (t_max_half c u w p) = 1000%nat) by (unfold t_max_half; rewrite map_length, linspace_length; reflexivity).
  assert (X : nth_error (t_max_table c u w p) (1000 - g) = Some x). { unfold np_at in H. assert (E : (Z.of_nat (1000 - g) <? 0)%Z = false) by (apply Z.ltb_ge; lia). rewrite E, E, Nat2Z.id in H. destruct (nth_error _ (1000 - g)); [injection H as <-; reflexivity|discriminate]. }
  unfold t_max_table in X. destruct g as [|g].
  - left. split; [reflexivity|]. replace (1000 - 0)%nat with 1000%nat in X by lia. rewrite nth_error_app2 in X by lia. rewrite L in X. replace (1000 - 1000)%nat with 0%nat in X by lia.
    destruct (t_max_half c u w p) as [|h0 tl0] eqn:EH using rev_ind; [discriminate|]. clear IHtl0.
    rewrite rev_app_distr in X. cbn in X. injection X as <-. rewrite app_length in L. cbn in L. rewrite nth_error_app2 by lia. replace (999 - length tl0)%nat with 0%nat by lia. cbn. destruct h0; cbn; [rewrite Ropp_involutive|]; reflexivity.
  - right. split; [lia|]. rewrite nth_error_app1 in X by lia. exact X.
Qed.
