(** Proofs about the torque conversion of induction motors in the examples (Ex_Model3.v). *)
From Verif Require Import PyBaseFacts PyDictFacts Transform_Model Ops_Model Ops_Proofs Ops_Props Ops_Props2.
From Verif Require Import PyBase PyDict PhysSys_Model Ex_Model Ex_Model2 Ex_Spec Ex_Model3 Ex_Spec2.
From Coq Require Import ZArith Lra Lia.
Local Open Scope string_scope.
Local Open Scope list_scope.
Local Open Scope R_scope.

Ltac ub6 H := repeat match type of H with bind ?x _ = Ok _ => let E := fresh "U" in destruct x eqn:E; [cbn [bind] in H|discriminate H] end.

Lemma some_inj {A} (a b : A) : Some a = Some b -> a = b.
Proof. intros H. congruence. Qed.
Lemma sq_le_abs x y : x * x <= y * y -> Rabs x <= Rabs y.
Proof. intros H. apply Rsqr_le_abs_0. exact H. Qed.
Lemma abs_sq x : Rabs x * Rabs x = x * x.
Proof. unfold Rabs. destruct (Rcase_abs x); ring. Qed.

(** The torque current for a real torque *)
Lemma im_q_spec m n t psi d : let c := mt_c m in let M := Rmax psi (1 / 1000) in
  0 < n -> 0 < sc_p c -> 0 < sc_lm c -> 0 < sc_lr c -> - n <= d <= n ->
  exists v, im_q m n (Some t) psi d = Some v /\ v * v + d * d <= n * n /\ 0 <= v * t /\ Rabs (im_torque (sc_p c) (sc_lm c) (sc_lr c) M v) <= Rabs t /\
    (forall x, 0 <= x * t -> Rabs (im_torque (sc_p c) (sc_lm c) (sc_lr c) M x) <= Rabs t -> x * x + d * d <= n * n -> Rabs x <= Rabs v).
Proof.
  intros c M Hn Hp Hm Hr Hd. unfold im_q. fold c M.
  assert (HM : 0 < M) by (unfold M; pose proof (Rmax_r psi (1 / 1000)); lra).
  set (K := 3 / 2 * sc_p c * sc_lm c / sc_lr c * M).
  assert (HK : 0 < K). { unfold K, Rdiv. repeat apply Rmult_lt_0_compat; try lra. apply Rinv_0_lt_compat. exact Hr. }
  assert (TQ : forall x, Rabs (im_torque (sc_p c) (sc_lm c) (sc_lr c) M x) = K * Rabs x). { intros x. unfold im_torque. fold K. rewrite Rabs_mult, (Rabs_pos_eq K) by lra. reflexivity. }
  set (q0 := t / M * 2 / 3 / sc_p c * sc_lr c / sc_lm c). assert (Q0 : q0 = t / K) by (unfold q0, K; field; repeat split; lra).
  assert (T0 : t = K * q0) by (rewrite Q0; field; lra). clearbody q0.
  assert (AT : Rabs t = K * Rabs q0) by (rewrite T0, Rabs_mult, (Rabs_pos_eq K) by lra; reflexivity).
  assert (LE : forall x, Rabs (im_torque (sc_p c) (sc_lm c) (sc_lr c) M x) <= Rabs t <-> Rabs x <= Rabs q0).
  { intros x. rewrite TQ, AT. split; intros H; [apply Rmult_le_reg_l with K; assumption|apply Rmult_le_compat_l; lra]. }
  assert (SG : forall x, 0 <= x * q0 -> 0 <= x * t). { intros x H. rewrite T0. replace (x * (K * q0)) with (K * (x * q0)) by ring. apply Rmult_le_pos; lra. }
  assert (DD : d * d <= n * n). { pose proof (Rmult_le_pos (n - d) (n + d) ltac:(lra) ltac:(lra)). lra. }
  set (q := np_clip q0 (- n) n). assert (QB : - n <= q <= n) by (apply np_clip_both; lra).
  assert (QQ : 0 <= q * q0 /\ Rabs q <= Rabs q0 /\ (Rabs q0 <= n -> q = q0) /\ (n < Rabs q0 -> q * q = n * n)).
  { unfold q, np_clip. unfold Rmax, Rmin. destruct (Rle_dec q0 (- n)) as [A|A]; [|destruct (Rle_dec q0 n) as [B|B]].
    - destruct (Rle_dec (- n) n) as [_|C]; [|lra]. split; [pose proof (Rmult_le_pos n (- q0) ltac:(lra) ltac:(lra)); lra|]. rewrite (Rabs_left q0), (Rabs_left (- n)) by lra. split; [lra|]. split; [intros; lra|intros; ring].
    - split; [apply (Rle_0_sqr q0)|]. split; [lra|]. split; [reflexivity|]. unfold Rabs. destruct (Rcase_abs q0); lra.
    - split; [apply Rmult_le_pos; lra|]. rewrite (Rabs_pos_eq q0), (Rabs_pos_eq n) by lra. split; [lra|]. split; [intros; lra|intros; ring]. }
  clearbody q. destruct QQ as (Q1 & Q2 & Q3 & Q4).
  assert (P : 0 <= q * q + d * d) by (pose proof (Rle_0_sqr q); pose proof (Rle_0_sqr d); unfold Rsqr in *; lra).
  destruct (rltP n (sqrt (q * q + d * d))) as [A|A].
  - assert (A' : n * n < q * q + d * d). { rewrite <- (sqrt_sqrt _ P). apply Rmult_le_0_lt_compat; lra. }
    rewrite np_sqrt_some by lra. set (w := sqrt (n * n - d * d)). assert (W : w * w = n * n - d * d) by (apply sqrt_sqrt; lra). assert (W0 : 0 <= w) by apply sqrt_pos.
    assert (QN : q <> 0) by (intros Z; rewrite Z in A'; lra).
    assert (WQ : w <= Rabs q). { rewrite <- (Rabs_pos_eq w W0). apply sq_le_abs. lra. }
    assert (SN : (np_sign q = 1 /\ 0 < q) \/ (np_sign q = -1 /\ q < 0)). { unfold np_sign. destruct (rltP q 0) as [C|C]; [right; split; [reflexivity|exact C]|]. destruct (rltP 0 q) as [C'|C']; [left; split; [reflexivity|exact C']|lra]. }
    assert (VV : np_sign q * w * (np_sign q * w) = w * w) by (destruct SN as [[-> _]|[-> _]]; ring).
    assert (AV : Rabs (np_sign q * w) = w). { rewrite Rabs_mult, (Rabs_pos_eq w) by exact W0. destruct SN as [[-> _]|[-> _]]; [rewrite Rabs_R1|rewrite Rabs_left by lra]; ring. }
    exists (np_sign q * w). split; [reflexivity|]. split; [rewrite VV; lra|]. split.
    + apply SG. destruct SN as [[-> C]|[-> C]].
      * assert (0 <= q0). { destruct (Rle_dec 0 q0) as [D|D]; [exact D|]. pose proof (Rmult_lt_0_compat q (- q0) C ltac:(lra)). lra. } rewrite Rmult_1_l. apply Rmult_le_pos; lra.
      * assert (q0 <= 0). { destruct (Rle_dec q0 0) as [D|D]; [exact D|]. pose proof (Rmult_lt_0_compat (- q) q0 ltac:(lra) ltac:(lra)). lra. } replace (-1 * w * q0) with (w * - q0) by ring. apply Rmult_le_pos; lra.
    + split; [apply LE; rewrite AV; lra|]. intros x _ _ X. rewrite AV. rewrite <- (Rabs_pos_eq w W0). apply sq_le_abs. lra.
  - assert (A' : q * q + d * d <= n * n). { rewrite <- (sqrt_sqrt _ P). apply Rmult_le_compat; try lra; apply sqrt_pos. }
    exists q. split; [reflexivity|]. split; [exact A'|]. split; [apply SG; exact Q1|]. split; [apply LE; exact Q2|]. intros x _ X1 X2. apply LE in X1. destruct (Rle_dec (Rabs q0) n) as [B|B]; [rewrite (Q3 B); exact X1|]. apply sq_le_abs. rewrite Q4 by lra. pose proof (Rle_0_sqr d). unfold Rsqr in *. lra.
Qed.
(** ... and for a demand that is first limited to the amount of the table torque [T] *)
Lemma im_q_best m n torque T psi d : let c := mt_c m in
  0 < n -> 0 < sc_p c -> 0 < sc_lm c -> 0 < sc_lr c -> - n <= d <= n ->
  exists v, im_q m n (Some (np_clip torque (- Rabs T) (Rabs T))) psi d = Some v /\ best_q (sc_p c) (sc_lm c) (sc_lr c) (Rmax psi (1 / 1000)) torque (Rabs T) n d v.
Proof.
  intros c Hn Hp Hm Hr Hd. set (t := np_clip torque (- Rabs T) (Rabs T)). destruct (im_q_spec m n t psi d Hn Hp Hm Hr Hd) as (v & E & B1 & B2 & B3 & B4). fold c in B3, B4. exists v. split; [exact E|].
  set (M := Rmax psi (1 / 1000)) in *. assert (HM : 0 < M) by (unfold M; pose proof (Rmax_r psi (1 / 1000)); lra). assert (HT : 0 <= Rabs T) by apply Rabs_pos.
  assert (TT : Rabs t <= Rabs torque /\ Rabs t <= Rabs T /\ (forall y, y <= Rabs torque -> y <= Rabs T -> y <= Rabs t) /\ ((t = 0 /\ (torque = 0 \/ T = 0)) \/ exists k, 0 < k /\ torque = k * t)).
  { pose proof (np_clip_both torque (- Rabs T) (Rabs T) ltac:(lra)) as CB. fold t in CB.
    destruct (Rle_dec torque (- Rabs T)) as [A|A]; [|destruct (Rle_dec torque (Rabs T)) as [B|B]].
    - assert (Et : t = - Rabs T) by (unfold t, np_clip; rewrite (Rmax_right torque), Rmin_left by lra; reflexivity). rewrite Et. rewrite (Rabs_left1 (- Rabs T)), (Rabs_left1 torque) by lra. rewrite Ropp_involutive. split; [lra|]. split; [lra|]. split; [intros; lra|].
      destruct (Req_dec (Rabs T) 0) as [Z|Z]; [left; split; [lra|]; right; destruct (Req_dec T 0) as [Y|Y]; [exact Y|]; exfalso; exact (Rabs_no_R0 T Y Z)|]. right. exists (torque / - Rabs T). split; [|field; lra]. replace (torque / - Rabs T) with (- torque * / Rabs T) by (field; lra). apply Rmult_lt_0_compat; [lra|apply Rinv_0_lt_compat; lra].
    - assert (Et : t = torque) by (unfold t; rewrite np_clip_id by lra; reflexivity). rewrite Et. split; [lra|]. split; [unfold Rabs at 1; destruct (Rcase_abs torque); lra|]. split; [intros; lra|]. right. exists 1. split; lra.
    - assert (Et : t = Rabs T) by (unfold t, np_clip; rewrite (Rmax_left torque), Rmin_right by lra; reflexivity). rewrite Et. rewrite (Rabs_pos_eq (Rabs T)), (Rabs_pos_eq torque) by lra. split; [lra|]. split; [lra|]. split; [intros; lra|].
      destruct (Req_dec (Rabs T) 0) as [Z|Z]; [left; split; [lra|]; right; destruct (Req_dec T 0) as [Y|Y]; [exact Y|]; exfalso; exact (Rabs_no_R0 T Y Z)|]. right. exists (torque / Rabs T). split; [|field; lra]. apply Rmult_lt_0_compat; [lra|apply Rinv_0_lt_compat; lra]. }
  clearbody t. destruct TT as (T1 & T2 & T3 & T4).
  assert (Z0 : forall x, Rabs (im_torque (sc_p c) (sc_lm c) (sc_lr c) M x) <= 0 -> x = 0).
  { intros x H. destruct (Req_dec x 0) as [Y|Y]; [exact Y|]. exfalso. assert (N : im_torque (sc_p c) (sc_lm c) (sc_lr c) M x <> 0). { unfold im_torque, Rdiv. repeat apply Rmult_integral_contrapositive_currified; try lra. apply Rinv_neq_0_compat. lra. } pose proof (Rabs_pos_lt _ N). lra. }
  split.
  - split; [|split; [lra|split; [lra|exact B1]]]. destruct T4 as [[Z _]|(k & Hk & ->)].
    + rewrite Z, Rabs_R0 in B3. rewrite (Z0 v B3). lra.
    + replace (v * (k * t)) with (k * (v * t)) by ring. apply Rmult_le_pos; lra.
  - intros x (X1 & X2 & X3 & X4). apply B4; [|apply T3; assumption|exact X4]. destruct T4 as [[-> _]|(k & Hk & E1)]; [lra|]. rewrite E1 in X1. replace (x * (k * t)) with (k * (x * t)) in X1 by ring. apply Rmult_le_reg_l with k; [exact Hk|lra].
Qed.

(** ** What the constructor fixes *)
Record imt_fact (e : env) (st : stage) (m : imt) (s0 : ims) : Prop := {
  fa_par : exists p lm lsr lss rr rs, dict_item "p" (en_mp e) = Ok p /\ dict_item "l_m" (en_mp e) = Ok lm /\ dict_item "l_sigr" (en_mp e) = Ok lsr /\ dict_item "l_sigs" (en_mp e) = Ok lss /\
    dict_item "r_r" (en_mp e) = Ok rr /\ dict_item "r_s" (en_mp e) = Ok rs /\ mt_c m = {| sc_p := p; sc_lm := lm; sc_lr := lm + lsr; sc_ls := lm + lss; sc_rr := rr; sc_rs := rs |};
  fa_isd : str_index "i_sd" (en_names e) = Ok (mt_isd m);
  fa_isq : str_index "i_sq" (en_names e) = Ok (mt_isq m);
  fa_usd : str_index "u_sd" (en_names e) = Ok (mt_usd m);
  fa_usq : str_index "u_sq" (en_names e) = Ok (mt_usq m);
  fa_om : str_index "omega" (en_names e) = Ok (mt_om m);
  fa_tq : exists j, str_index "torque" (en_names e) = Ok j /\ item (en_limits e) j = Ok (mt_tmax m);
  fa_lim : mt_limits m = en_limits e;
  fa_nom : mt_nominal m = en_nominal e;
  fa_tau : mt_tau m = en_tau e;
  fa_opt : exists il, item (en_limits e) (mt_isd m) = Ok il /\ psi_opt_table (mt_c m) il (- mt_tmax m) (mt_tmax m) = Ok (mt_opt m);
  fa_max : np_max (map sr_psi (mt_opt m)) = Ok (mt_psimax m);
  fa_tab : exists un wn, item (en_nominal e) (mt_usd m) = Ok un /\ item (en_nominal e) (mt_om m) = Ok wn /\ mt_tab m = t_max_table (mt_c m) un wn (mt_psimax m);
  fa_udc : exists ja la, str_index "u_sa" (en_names e) = Ok ja /\ item (en_limits e) ja = Ok la /\ mt_udc m = sqrt 3 * la;
  fa_gain : mt_gain m = 1 / (sc_ls (mt_c m) / (125 / 100 * sc_rs (mt_c m))) * (im_alpha - 1) / (im_alpha * im_alpha);
  fa_int : is_int s0 = 0;
  fa_pi : exists pg, dict_item "p_gain" (st_par st) = Ok pg /\ pi_int (is_psi s0) = 0 }.
Lemma imt_new_facts e st m s0 : imt_new e st = Ok (m, s0) -> imt_fact e st m s0.
Proof.
  intros H. unfold imt_new in H. cbn zeta in H. ub6 H. apply ok_inj in H. injection H as <- <-. constructor; cbn [mt_c mt_tau mt_isd mt_isq mt_usd mt_usq mt_om mt_limits mt_nominal mt_tmax mt_opt mt_psimax mt_tab mt_gain mt_udc is_int is_psi pi_int]; try assumption; try reflexivity.
  - do 6 eexists. repeat (split; [first [eassumption|reflexivity]|]). reflexivity.
  - eexists. split; eassumption.
  - eexists. split; eassumption.
  - do 2 eexists. repeat (split; [eassumption|]). reflexivity.
  - do 2 eexists. repeat (split; [eassumption|]). reflexivity.
  - eexists. split; [eassumption|reflexivity].
Qed.
Lemma mapm_in {A B} (f : A -> res B) l r : mapm f l = Ok r -> forall y, In y r -> exists x, In x l /\ f x = Ok y.
Proof.
  revert r. induction l as [|x l IH]; cbn; intros r H y Hy; [apply ok_inj in H; subst r; destruct Hy|]. ub6 H. apply ok_inj in H. subst r. destruct Hy as [<-|Hy]; [exists x; auto|]. destruct (IH _ eq_refl _ Hy) as (x' & A1 & A2). exists x'. auto.
Qed.
Section Drive.
  Variables (e : env) (st : stage) (m : imt) (s0 : ims) (p lm lsr lss rr rs ld lq tl n un wn : R).
  Hypothesis Fa : imt_fact e st m s0.
  Hypothesis Dr : im_drive e p lm lsr lss rr rs ld lq tl n un wn.
  Let lr := lm + lsr.
  Let ls := lm + lss.

  Lemma dr_c : mt_c m = {| sc_p := p; sc_lm := lm; sc_lr := lr; sc_ls := ls; sc_rr := rr; sc_rs := rs |}.
  Proof. destruct (fa_par _ _ _ _ Fa) as (p' & lm' & lsr' & lss' & rr' & rs' & A1 & A2 & A3 & A4 & A5 & A6 & ->). destruct Dr as (B1 & B2 & B3 & B4 & B5 & B6 & _). unfold lr, ls. congruence. Qed.
  Lemma dr_tmax : mt_tmax m = tl.
  Proof. destruct (fa_tq _ _ _ _ Fa) as (j & A1 & A2). destruct Dr as (_ & _ & _ & _ & _ & _ & _ & _ & _ & _ & _ & _ & _ & _ & _ & _ & _ & _ & (nt & j' & B1 & B2 & _) & _). congruence. Qed.
  Lemma dr_pos : 0 < p /\ 0 < lm /\ 0 < lr /\ 0 < ls /\ 0 < ld /\ 0 < lq /\ 0 < tl /\ 0 < n /\ 0 < wn.
  Proof. unfold lr, ls. destruct Dr as (_ & _ & _ & _ & _ & _ & ? & ? & ? & ? & ? & ? & ? & ? & ? & ? & _). repeat split; assumption. Qed.
  Lemma dr_isd : item (mt_limits m) (mt_isd m) = Ok ld /\ item (mt_nominal m) (mt_isd m) = Ok n.
  Proof. rewrite (fa_lim _ _ _ _ Fa), (fa_nom _ _ _ _ Fa). destruct Dr as (_ & _ & _ & _ & _ & _ & _ & _ & _ & _ & _ & _ & _ & _ & _ & _ & (j & B1 & B2 & B3) & _). pose proof (fa_isd _ _ _ _ Fa) as A. assert (j = mt_isd m) by congruence. subst j. auto. Qed.
  Lemma dr_isq : item (mt_limits m) (mt_isq m) = Ok lq /\ item (mt_nominal m) (mt_isq m) = Ok n.
  Proof. rewrite (fa_lim _ _ _ _ Fa), (fa_nom _ _ _ _ Fa). destruct Dr as (_ & _ & _ & _ & _ & _ & _ & _ & _ & _ & _ & _ & _ & _ & _ & _ & _ & (j & B1 & B2 & B3) & _). pose proof (fa_isq _ _ _ _ Fa) as A. assert (j = mt_isq m) by congruence. subst j. auto. Qed.
  Lemma dr_tab : mt_tab m = t_max_table (mt_c m) un wn (mt_psimax m).
  Proof.
    destruct (fa_tab _ _ _ _ Fa) as (un' & wn' & A1 & A2 & A3). destruct Dr as (_ & _ & _ & _ & _ & _ & _ & _ & _ & _ & _ & _ & _ & _ & _ & _ & _ & _ & _ & (lu & j & B1 & _ & B2) & (lw & k & C1 & _ & C2)).
    pose proof (fa_usd _ _ _ _ Fa). pose proof (fa_om _ _ _ _ Fa). assert (j = mt_usd m) by congruence. assert (k = mt_om m) by congruence. subst j k. rewrite A3. congruence.
  Qed.
  Lemma dr_opt : length (mt_opt m) = 1001%nat /\ forall row, In row (mt_opt m) -> 0 <= sr_psi row <= mt_psimax m.
  Proof.
    destruct (fa_opt _ _ _ _ Fa) as (il & A1 & A2). rewrite <- (fa_lim _ _ _ _ Fa) in A1. destruct dr_isd as [B1 _]. assert (il = ld) by congruence. subst il. destruct dr_pos as (P1 & P2 & P3 & P4 & P5 & _). split.
    - destruct (mapm_spec _ _ _ A2) as [L _]. rewrite linspace_length in L. exact L.
    - intros row Hr. split.
      + destruct (mapm_in _ _ _ A2 row Hr) as (t & _ & E). apply (psi_opt_row_le (mt_c m) ld t row); [exact P5|rewrite dr_c; exact P2|exact E].
      + apply (np_max_spec _ _ (fa_max _ _ _ _ Fa)). apply in_map. exact Hr.
  Qed.
  Lemma dr_psimax : 0 <= mt_psimax m.
  Proof. destruct dr_opt as [L B]. destruct (mt_opt m) as [|row l] eqn:E0; [discriminate|]. pose proof (B row (or_introl eq_refl)). lra. Qed.
  Lemma dr_psimax_le : mt_psimax m <= lm * ld.
  Proof.
    destruct dr_pos as (P1 & P2 & P3 & P4 & P5 & _). destruct (np_max_spec _ _ (fa_max _ _ _ _ Fa)) as [I0 _]. apply in_map_iff in I0. destruct I0 as (row & <- & Hr). destruct (fa_opt _ _ _ _ Fa) as (il & A1 & A2). rewrite <- (fa_lim _ _ _ _ Fa) in A1. destruct dr_isd as [B1 _]. assert (il = ld) by congruence. subst il.
    destruct (mapm_in _ _ _ A2 row Hr) as (t & _ & E). destruct (psi_opt_row_le (mt_c m) ld t row P5 ltac:(rewrite dr_c; exact P2) E) as [_ Q]. rewrite dr_c in Q. cbn [sc_lm] in Q. assert (lm * (498 / 499 * ld) <= lm * ld) by (apply Rmult_le_compat_l; lra). lra.
  Qed.
  (** the largest flux when the torque limit needs more than the current limit *)
  Lemma dr_psimax_eq : (let M := 3 / 2 * p * (lm * lm) / lr in rs * (M * M) * (ld * ld * (ld * ld)) < (rs + rr * (lm * lm) / (lr * lr)) * (tl * tl)) ->
    mt_psimax m = lm * (498 / 499 * ld) /\ exists row, np_at (mt_opt m) 1000 = Ok row /\ sr_psi row = mt_psimax m.
  Proof.
    intros HM. cbn zeta in HM. assert (Hs : 0 < rs) by (destruct Dr as (_ & _ & _ & _ & _ & _ & _ & _ & _ & _ & ? & _); assumption). destruct dr_pos as (P1 & P2 & P3 & P4 & P5 & _ & P7 & _). destruct (fa_opt _ _ _ _ Fa) as (il & A1 & A2). rewrite <- (fa_lim _ _ _ _ Fa) in A1. destruct dr_isd as [B1 _]. assert (il = ld) by congruence. subst il.
    destruct (mapm_spec _ _ _ A2) as [L S]. rewrite linspace_length in L. rewrite dr_tmax in *.
    assert (X : nth_error (linspace (- tl) tl scim_t_count) 1000 = Some tl). { rewrite linspace_nth by (unfold scim_t_count; lia). f_equal. unfold scim_t_count. replace (INR (1001 - 1)) with (INR 1000) by reflexivity. replace (INR 1000) with 1000 by (rewrite INR_IZR_INZ; reflexivity). field. }
    destruct (S 1000%nat tl X) as (row & Er & Nr). destruct (psi_opt_row_end (mt_c m) ld tl P5) as (row' & Er' & Pr); try (rewrite ?dr_c; cbn [sc_p sc_lm sc_lr sc_rs sc_rr]; lra). rewrite Er in Er'. apply ok_inj in Er'. subst row'. rewrite dr_c in Pr. cbn [sc_lm] in Pr.
    assert (PM : mt_psimax m = lm * (498 / 499 * ld)).
    { apply Rle_antisym.
      - destruct (np_max_spec _ _ (fa_max _ _ _ _ Fa)) as [I0 _]. apply in_map_iff in I0. destruct I0 as (r2 & <- & Hr). destruct (mapm_in _ _ _ A2 r2 Hr) as (t & _ & E). destruct (psi_opt_row_le (mt_c m) ld t r2 P5 ltac:(rewrite dr_c; exact P2) E) as [_ Q]. rewrite dr_c in Q. exact Q.
      - rewrite <- Pr. apply (np_max_spec _ _ (fa_max _ _ _ _ Fa)). apply in_map. eapply nth_error_In. exact Nr. }
    split; [exact PM|]. exists row. split; [|rewrite Pr, PM; reflexivity]. destruct (np_at_ok (mt_opt m) 1000 ltac:(rewrite L; unfold scim_t_count; lia)) as (r2 & E2 & N2). change (Z.to_nat 1000) with (1000%nat) in N2. rewrite Nr in N2. rewrite E2. congruence.
  Qed.
  Lemma dr_idx t : exists k row, im_psi_idx m t = Ok k /\ np_at (mt_opt m) k = Ok row /\ 0 <= sr_psi row <= mt_psimax m.
  Proof.
    destruct dr_pos as (_ & _ & _ & _ & _ & _ & P & _). unfold im_psi_idx. rewrite dr_tmax. destruct (reqP tl 0) as [Z|_]; [lra|]. set (k := py_round _). assert (K : (0 <= k <= 1000)%Z).
    { unfold k. apply (py_round_range _ 1000). unfold scim_t_count. replace (INR (1001 - 1)) with 1000 by (change (1001 - 1)%nat with 1000%nat; rewrite INR_IZR_INZ; reflexivity). replace (INR 1000) with 1000 by (rewrite INR_IZR_INZ; reflexivity).
      pose proof (np_clip_both t (- tl) tl ltac:(lra)) as C. set (c := np_clip t (- tl) tl) in *. assert (Q : 0 <= (c - - tl) / (tl - - tl) <= 1). { assert (I : 0 < / (tl - - tl)) by (apply Rinv_0_lt_compat; lra). split; [apply Rmult_le_pos; lra|]. unfold Rdiv. rewrite <- (Rinv_r (tl - - tl)) by lra. apply Rmult_le_compat_r; lra. } lra. }
    exists k. destruct dr_opt as [L B]. destruct (np_at_ok (mt_opt m) k ltac:(rewrite L; lia)) as (row & E & N). exists row. split; [reflexivity|]. split; [exact E|]. apply B. eapply nth_error_In. exact N.
  Qed.
  (** the table torque for a flux demand: the nominal point at a flux at most 1.5 grid steps lower *)
  Lemma dr_lookup psi : 0 < mt_psimax m -> 0 <= psi <= mt_psimax m ->
    exists g tm psi', im_t_idx m psi = Ok g /\ np_at (mt_tab m) (Z.of_nat scim_psi_count - g) = Ok tm /\ 0 <= psi' <= psi /\ psi - 3 / 2 * (mt_psimax m / 999) <= psi' /\
      ((q_room un wn ls lm psi' < 0 /\ tm = None) \/ (0 <= q_room un wn ls lm psi' /\ exists T, tm = Some T /\ Rabs T = im_torque p lm lr psi' (sqrt (q_room un wn ls lm psi')))).
  Proof.
    intros Hm Hpsi. unfold im_t_idx. destruct (reqP (mt_psimax m) 0) as [Z|_]; [lra|]. rewrite np_clip_id by lra. unfold scim_psi_count at 1. replace (INR (1000 - 1)) with 999 by (change (1000 - 1)%nat with 999%nat; rewrite INR_IZR_INZ; reflexivity).
    set (x := psi / mt_psimax m * 999). set (P := mt_psimax m) in *. assert (X : psi = x * (P / 999)) by (unfold x; field; lra). assert (X0 : 0 <= x <= 999). { unfold x. assert (Q : 0 <= psi / P <= 1). { assert (I : 0 < / P) by (apply Rinv_0_lt_compat; lra). split; [apply Rmult_le_pos; lra|]. unfold Rdiv. rewrite <- (Rinv_r P) by lra. apply Rmult_le_compat_r; lra. } lra. }
    pose proof (py_round_range x 999 ltac:(replace (INR 999) with 999 by (rewrite INR_IZR_INZ; reflexivity); exact X0)) as G. pose proof (py_round_near x) as Nr. set (z := py_round x) in *. clearbody z.
    set (g := Z.to_nat z). assert (Gz : z = Z.of_nat g) by (unfold g; rewrite Z2Nat.id by lia; reflexivity). rewrite Gz in *. clearbody g. clear z Gz. assert (Hg : (0 <= g <= 999)%nat) by lia. rewrite <- INR_IZR_INZ in Nr.
    assert (Nr' : x - 1 / 2 <= INR g <= x + 1 / 2) by (unfold Rabs in Nr; destruct (Rcase_abs (INR g - x)); lra). clear Nr.
    exists (Z.of_nat g). destruct (np_at_ok (mt_tab m) (Z.of_nat scim_psi_count - Z.of_nat g)) as (tm & Et & _); [rewrite dr_tab, t_max_table_length; unfold scim_psi_count; lia|].
    exists tm, (INR (Nat.pred g) * (P / 999)). split; [reflexivity|]. split; [exact Et|].
    assert (S0 : 0 < P / 999) by (apply Rmult_lt_0_compat; lra).
    assert (PG : INR (Nat.pred g) <= x /\ x - 3 / 2 <= INR (Nat.pred g)). { destruct g as [|g]; [cbn in Nr' |- *; lra|]. cbn [Nat.pred]. rewrite S_INR in Nr'. lra. }
    assert (PG0 : 0 <= INR (Nat.pred g)) by apply pos_INR.
    split; [split; [apply Rmult_le_pos; lra|rewrite X; apply Rmult_le_compat_r; lra]|]. split; [rewrite X; pose proof (Rmult_le_compat_r (P / 999) _ _ ltac:(lra) (proj2 PG)); lra|].
    rewrite dr_tab in Et. destruct dr_pos as (P1 & P2 & P3 & P4 & _).
    assert (HV : forall j, (j < 1000)%nat -> nth_error (t_max_half (mt_c m) un wn P) j = Some (match np_sqrt (q_room un wn ls lm (P + INR j * ((0 - P) / 999))) with None => None | Some q => Some (im_torque p lm lr (P + INR j * ((0 - P) / 999)) q) end)).
    { intros j Hj. unfold t_max_half. erewrite map_nth_error; [|apply linspace_nth; exact Hj]. rewrite dr_c. cbn [sc_ls sc_lm sc_p sc_lr]. unfold scim_psi_count. replace (INR (1000 - 1)) with 999 by (change (1000 - 1)%nat with 999%nat; rewrite INR_IZR_INZ; reflexivity). unfold q_room, im_torque. reflexivity. }
    set (psi' := INR (Nat.pred g) * (P / 999)) in *. assert (Pp : 0 <= psi') by (unfold psi'; apply Rmult_le_pos; lra). assert (KK : forall q, 0 <= q -> 0 <= im_torque p lm lr psi' q). { intros q Hq. unfold im_torque, Rdiv. repeat apply Rmult_le_pos; try lra. left; apply Rinv_0_lt_compat; lra. }
    destruct (t_max_lookup _ _ _ _ _ Hg _ Et) as [[-> Hn]|[Hg1 Hn]]; rewrite HV in Hn by lia; apply some_inj in Hn.
    - replace (P + INR 999 * ((0 - P) / 999)) with psi' in Hn by (unfold psi'; cbn [Nat.pred]; replace (INR 999) with 999 by (rewrite INR_IZR_INZ; reflexivity); cbn [INR]; field). destruct (Rlt_dec (q_room un wn ls lm psi') 0) as [A|A].
      + left. split; [exact A|]. rewrite np_sqrt_none in Hn by exact A. destruct tm; [discriminate|reflexivity].
      + right. split; [lra|]. rewrite np_sqrt_some in Hn by lra. destruct tm as [T|]; [|discriminate]. cbn in Hn. injection Hn as Hn. exists T. split; [reflexivity|]. replace T with (- im_torque p lm lr psi' (sqrt (q_room un wn ls lm psi'))) by lra. rewrite Rabs_Ropp. apply Rabs_pos_eq. apply KK. apply sqrt_pos.
    - replace (P + INR (1000 - g) * ((0 - P) / 999)) with psi' in Hn. 2:{ unfold psi'. destruct g as [|g]; [lia|]. cbn [Nat.pred]. replace (1000 - S g)%nat with (999 - g)%nat by lia. rewrite minus_INR by lia. replace (INR 999) with 999 by (rewrite INR_IZR_INZ; reflexivity). field. }
      destruct (Rlt_dec (q_room un wn ls lm psi') 0) as [A|A].
      + left. split; [exact A|]. rewrite np_sqrt_none in Hn by exact A. symmetry. exact Hn.
      + right. split; [lra|]. rewrite np_sqrt_some in Hn by lra. eexists. split; [symmetry; exact Hn|]. apply Rabs_pos_eq. apply KK. apply sqrt_pos.
  Qed.
  (** one call *)
  Lemma dr_call s x t psi s' q d f : imt_control m s x t psi = Ok (s', (q, d, f)) ->
    0 < mt_psimax m /\ Rabs (d * ld) <= 9 / 10 * n /\ 0 <= f <= mt_psimax m /\
    exists psi', 0 <= psi' <= f /\ f - 3 / 2 * (mt_psimax m / 999) <= psi' /\
      ((q_room un wn ls lm psi' < 0 /\ q = None) \/
       (0 <= q_room un wn ls lm psi' /\ exists v, q = Some (v / lq) /\
        best_q p lm lr (Rmax psi (1 / 1000)) t (im_torque p lm lr psi' (sqrt (q_room un wn ls lm psi'))) n (d * ld) v)).
  Proof.
    intros H. unfold imt_control in H. destruct (dr_idx t) as (k & row & E1 & E2 & B). rewrite E1 in H. cbn [bind] in H. rewrite E2 in H. cbn [bind] in H.
    destruct (im_modulation m (is_int s) x) as [mo|] eqn:Em; [|discriminate]. cbn [bind] in H.
    assert (M0 : 0 <= snd mo). { unfold im_modulation in Em. cbn zeta in Em. ub6 Em. apply ok_inj in Em. subst mo. cbn [snd]. apply Rmax_r. }
    assert (F0 : 0 <= Rmin (sr_psi row) (snd mo) <= mt_psimax m) by (unfold Rmin; destruct (Rle_dec (sr_psi row) (snd mo)); lra). set (f0 := Rmin _ _) in *. clearbody f0.
    assert (PM : 0 < mt_psimax m). { destruct (Rle_lt_or_eq_dec _ _ dr_psimax) as [Z|Z]; [exact Z|]. exfalso. unfold im_t_idx in H. destruct (reqP (mt_psimax m) 0) as [_|N]; [discriminate|lra]. }
    destruct (dr_lookup f0 PM F0) as (g & tm & psi' & L1 & L2 & L3 & L4 & L5). rewrite L1 in H. cbn [bind] in H. rewrite L2 in H. cbn [bind] in H.
    destruct dr_isd as [I1 I2]. destruct dr_isq as [J1 J2]. rewrite I2, J2 in H. cbn [bind] in H. rewrite J1, I1 in H. cbn [bind] in H. apply ok_inj in H. injection H as _ H2 H3 H4. destruct dr_pos as (P1 & P2 & P3 & P4 & P5 & P6 & P7 & P8 & _).
    set (i := np_clip _ _ _) in *. assert (I0 : - (9 / 10) * n <= i <= 9 / 10 * n) by (apply np_clip_both; lra). clearbody i.
    assert (D0 : d * ld = i) by (rewrite <- H3; field; lra). rewrite D0. split; [exact PM|]. split; [unfold Rabs; destruct (Rcase_abs i); lra|]. rewrite <- H4. split; [exact F0|]. exists psi'. split; [exact L3|]. split; [exact L4|].
    destruct L5 as [[A ->]|(A & T & -> & ET)].
    - left. split; [exact A|]. rewrite <- H2. reflexivity.
    - right. split; [exact A|]. destruct (im_q_best m n t T psi i ltac:(lra)) as (v & Ev & Bv); try (rewrite dr_c; cbn; assumption); [lra|]. exists v. split; [rewrite <- H2; cbn [nan_map]; rewrite Ev; reflexivity|]. rewrite <- ET. rewrite dr_c in Bv. exact Bv.
  Qed.
  Lemma dr_run s h s' outs : imt_run m s h = Ok (s', outs) -> Forall (fun o => match o with (t, psi, (q, d, f)) =>
    0 < mt_psimax m /\ Rabs (d * ld) <= 9 / 10 * n /\ 0 <= f <= mt_psimax m /\
    exists psi', 0 <= psi' <= f /\ f - 3 / 2 * (mt_psimax m / 999) <= psi' /\
      ((q_room un wn ls lm psi' < 0 /\ q = None) \/
       (0 <= q_room un wn ls lm psi' /\ exists v, q = Some (v / lq) /\
        best_q p lm lr (Rmax psi (1 / 1000)) t (im_torque p lm lr psi' (sqrt (q_room un wn ls lm psi'))) n (d * ld) v)) end) outs.
  Proof.
    revert s s' outs. induction h as [|[x t psi|] h IH]; intros s s' outs H; cbn [imt_run] in H.
    - apply ok_inj in H. injection H as _ <-. constructor.
    - destruct (imt_control m s x t psi) as [o|] eqn:Eo; [|discriminate]. cbn [bind] in H. destruct (imt_run m (fst o) h) as [y|] eqn:Ey; [|discriminate]. cbn [bind] in H. apply ok_inj in H. injection H as _ <-. destruct y as [s2 l]. constructor; [|exact (IH _ _ _ Ey)]. destruct o as [s1 [[q d] f]]. cbn [snd]. exact (dr_call _ _ _ _ _ _ _ _ Eo).
    - exact (IH _ _ _ H).
  Qed.
  (** a call does not raise *)
  Lemma dr_total s x t psi : 0 < mt_psimax m -> (exists a b w, item x (mt_usd m) = Ok a /\ item x (mt_usq m) = Ok b /\ item x (mt_om m) = Ok w) ->
    (exists a b w, item (mt_limits m) (mt_usd m) = Ok a /\ item (mt_limits m) (mt_usq m) = Ok b /\ item (mt_limits m) (mt_om m) = Ok w) -> exists o, imt_control m s x t psi = Ok o.
  Proof.
    intros PM (a & b & w & A1 & A2 & A3) (a' & b' & w' & B1 & B2 & B3). unfold imt_control. destruct (dr_idx t) as (k & row & E1 & E2 & B). rewrite E1. cbn [bind]. rewrite E2. cbn [bind].
    assert (Em : exists mo, im_modulation m (is_int s) x = Ok mo) by (unfold im_modulation; rewrite A1, B1, A2, B2, A3, B3; eexists; reflexivity). destruct Em as (mo & Em). rewrite Em. cbn [bind].
    assert (M0 : 0 <= snd mo). { unfold im_modulation in Em. cbn zeta in Em. ub6 Em. apply ok_inj in Em. subst mo. cbn [snd]. apply Rmax_r. }
    assert (F0 : 0 <= Rmin (sr_psi row) (snd mo) <= mt_psimax m) by (unfold Rmin; destruct (Rle_dec (sr_psi row) (snd mo)); lra).
    destruct (dr_lookup _ PM F0) as (g & tm & psi' & L1 & L2 & _). rewrite L1. cbn [bind]. rewrite L2. cbn [bind].
    destruct dr_isd as [I1 I2]. destruct dr_isq as [J1 J2]. rewrite I2, J2. cbn [bind]. rewrite J1, I1. cbn [bind]. eexists. reflexivity.
  Qed.
End Drive.
