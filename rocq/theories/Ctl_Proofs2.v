(** The integrator of the current controller stays bounded; tuned controllers have the right shapes. *)
From Verif Require Import PyBaseFacts PyDictFacts Transform_Model Transform_Proofs Conv_Model Wrap_Model Ctl_Model Ctl_Model2 Ctl_Spec Ctl_Proofs.
Local Open Scope string_scope. Local Open Scope list_scope. Local Open Scope R_scope.

Lemma np_clip_bound x lo hi : lo <= hi -> x = np_clip x lo hi -> Rabs x <= Rmax (Rabs lo) (Rabs hi).
Proof.
  intros H E. pose proof (np_clip_lb x lo hi H) as H1. pose proof (np_clip_ub x lo hi) as H2. rewrite <- E in H1, H2. pose proof (Rmax_l (Rabs lo) (Rabs hi)). pose proof (Rmax_r (Rabs lo) (Rabs hi)).
  apply Rabs_le. pose proof (Rle_abs hi). pose proof (Rle_abs (- lo)). rewrite Rabs_Ropp in *. lra.
Qed.
Lemma sq_unclipped lim m y v k : 0 <= m < 1 -> length y = length lim -> (k < length y)%nat -> comp k lim <> 0 -> sq_clip lim m y = Ok v -> comp k y = comp k v -> Rabs (comp k y) <= Rabs (comp k lim).
Proof.
  intros Hm Hl Hk Hz H E. rewrite sq_clip_val in H by exact Hl. injection H as <-. rewrite comp_map in E by exact Hk. pose proof (comp_le_rel lim y k Hl Hk Hz) as Hb. pose proof (rel_length_nonneg lim y) as H0.
  pose proof (Rabs_pos (comp k lim)) as Hp. unfold sq_factor in E. rewrite rlt_len in E by lra.
  assert (Hc : comp k y = 0 \/ rel_length lim y <= 1).
  { destruct (rltP (rel_length lim y) (1 - m)) as [H|H]; [right; lra|]. destruct (Req_dec (comp k y) 0) as [Hy|Hy]; [left; exact Hy|]. right.
    assert (Hd : 0 < len2 lim y) by (rewrite <- rel_length_sq; nra). assert (E1 : (1 - m) / len2 lim y = 1) by (apply (Rmult_eq_reg_r (comp k y)); [lra|exact Hy]).
    assert (E2 : len2 lim y = 1 - m). { apply (Rmult_eq_compat_r (len2 lim y)) in E1. unfold Rdiv in E1. rewrite Rmult_assoc, Rinv_l in E1 by lra. lra. }
    rewrite <- rel_length_sq in E2. nra. }
  destruct Hc as [-> | Hc]; [rewrite Rabs_R0; exact Hp|]. nra.
Qed.
Lemma unclipped_bound n cl y v k : clip_shape n cl -> clip_proper n cl -> length y = n -> (k < n)%nat -> clipped cl y = Ok v -> comp k y = comp k v -> Rabs (comp k y) <= clip_bound k cl.
Proof.
  destruct cl as [lo hi|lim m|lim lo hi m]; cbn [clip_shape clip_proper clipped clip_bound]; intros Hs Hp Ly Hk H E.
  - destruct Hs as [H1 H2]. destruct (np_clips_inv _ _ _ _ n H Ly H1 H2) as [_ C]. rewrite C in E by exact Hk. apply np_clip_bound; auto.
  - destruct Hp as [Hm Hz]. apply (sq_unclipped lim m y v); try congruence; auto.
  - destruct Hs as (Hn & Hl & Hlo & Hhi). destruct Hp as (Hm & Hz & Hle). rewrite Hn in Ly, Hk. clear Hn n. apply bind_ok in H. destruct H as (rs & E1 & H). apply bind_ok in H. destruct H as (s & E2 & H). apply bind_ok in H. destruct H as (ra & E3 & H). apply bind_ok in H. destruct H as (a & E4 & H).
    injection H as <-. destruct y as [|y0 [|y1 [|y2 [|]]]]; try discriminate Ly. injection E1 as <-. injection E3 as <-. destruct (np_clips_inv _ _ _ _ 1%nat E4 eq_refl Hlo Hhi) as [La Ca].
    assert (Ls : length s = 2%nat). { rewrite sq_clip_val in E2 by (symmetry; exact Hl). injection E2 as <-. reflexivity. } destruct s as [|s0 [|s1 [|]]]; try discriminate Ls. destruct a as [|a0 [|]]; try discriminate La.
    destruct k as [|[|[|k]]]; try lia; cbn [Nat.ltb Nat.leb].
    + apply (sq_unclipped lim m [y0; y1] [s0; s1] 0); auto; cbn [length]; lia.
    + apply (sq_unclipped lim m [y0; y1] [s0; s1] 1); auto; cbn [length]; lia.
    + specialize (Ca O ltac:(lia)). cbn in E, Ca |- *. rewrite Ca in E. apply np_clip_bound; auto.
Qed.
Lemma base_call_pi b s r b' u : b_kind b = KPI -> base_call b s r = (b', Ok u) -> pi_control b s r = Ok u.
Proof. intros K H. unfold base_call in H. rewrite K in H. injection H as _ H. exact H. Qed.
(** What keeps the k-th integrator bounded. *)
Lemma integrator_run n k E F c0 : (k < n)%nat -> 0 <= aw_tau (cc_aw c0) -> 0 < comp k (b_i (cc_base c0)) -> clip_proper n (cs_clip (cc_clip c0)) ->
  forall ins c c', shaped n c -> b_kind (cc_base c) = KPI -> b_idx (cc_base c) = Some (aw_idx (cc_aw c)) -> b_p (cc_base c) = b_p (cc_base c0) -> b_i (cc_base c) = b_i (cc_base c0) ->
  cs_clip (cc_clip c) = cs_clip (cc_clip c0) -> cc_aw c = cc_aw c0 -> Forall (fun i => length (snd i) = n) ins -> mild k E F c ins -> cc_run c ins = Ok c' ->
  let G := (clip_bound k (cs_clip (cc_clip c0)) + F + Rabs (comp k (b_p (cc_base c0))) * E) / comp k (b_i (cc_base c0)) + aw_tau (cc_aw c0) * E in
  Rabs (comp k (b_int (cc_base c'))) <= Rmax (Rabs (comp k (b_int (cc_base c)))) G.
Proof.
  intros Hk Ht Hi Hp. induction ins as [|[s r] ins IH]; intros c c' Hsh HK Hidx EP EI EC EA Hlen Hm H; cbn [cc_run] in H; intros G.
  - injection H as <-. apply Rmax_l.
  - destruct (current_control c s r) as [c1 o] eqn:Ecc. apply bind_ok in H. destruct H as (u & -> & H). apply Forall_cons_iff in Hlen. destruct Hlen as [Hr Hlen]. cbn [snd] in Hr.
    cbn [mild] in Hm. rewrite Ecc in Hm. cbn [fst] in Hm. destruct Hm as (M1 & M2 & M3).
    pose proof (current_step n c s r c1 u Hsh Hr Ecc) as (Hsh1 & y & v & x & S1 & S2 & S3 & S4 & S5 & S6 & _ & S7 & S8 & S9 & S10 & S11 & S12 & S13 & S14 & S15 & _).
    assert (Hnext : Rabs (comp k (b_int (cc_base c1))) <= Rmax (Rabs (comp k (b_int (cc_base c)))) G).
    { rewrite S7 by exact Hk. destruct (reqP (comp k y) (comp k v)) as [Eq|Eq]; [|rewrite Rplus_0_r; apply Rmax_l].
      apply Rle_trans with (2 := Rmax_r _ _). assert (Hb : Rabs (comp k y) <= clip_bound k (cs_clip (cc_clip c0))). { rewrite <- EC. apply (unclipped_bound n _ y v); try assumption; [apply Hsh|rewrite EC; exact Hp]. }
      unfold command in S1. apply bind_ok in S1. destruct S1 as (u0 & Eu & S1). assert (Hf : Rabs (comp k y - comp k u0) <= F). { apply (M2 u0 y Eu). unfold command. rewrite Eu. exact S1. }
      destruct (base_call (cc_base c) s r) as [b' ou] eqn:Eb. cbn in Eu. subst ou. apply base_call_pi in Eb; [|exact HK]. destruct (pi_control_inv _ _ _ _ n (proj1 Hsh) Hr Eb) as (xb & Exb & _ & _ & Cu).
      assert (xb = x). { unfold base_states in Exb. rewrite Hidx in Exb. congruence. } subst xb. rewrite Cu in Hf by exact Hk. rewrite EP, EI in Hf.
      rewrite (select_comp _ _ _ k S5) in Hf |- * by (rewrite (proj2 (proj2 (proj2 Hsh))); exact Hk). set (e := comp k r - comp (nth k (aw_idx (cc_aw c)) 0%nat) s) in *.
      set (z := comp k (b_int (cc_base c))) in *. set (kp := comp k (b_p (cc_base c0))) in *. set (ki := comp k (b_i (cc_base c0))) in *. rewrite EA.
      assert (Hz : ki * Rabs z <= clip_bound k (cs_clip (cc_clip c0)) + F + Rabs kp * E).
      { rewrite <- (Rabs_pos_eq ki) at 1 by lra. rewrite <- Rabs_mult. replace (ki * z) with (comp k y - (comp k y - (kp * e + ki * z)) - kp * e) by ring.
        eapply Rle_trans; [apply Rabs_triang|]. rewrite Rabs_Ropp, Rabs_mult. pose proof (Rabs_triang (comp k y) (- (comp k y - (kp * e + ki * z)))) as HT. rewrite Rabs_Ropp in HT. unfold Rminus in HT |- *.
        pose proof (Rmult_le_compat_l (Rabs kp) _ _ (Rabs_pos kp) M1). unfold Rminus in Hf. lra. }
      assert (Hz2 : Rabs z <= (clip_bound k (cs_clip (cc_clip c0)) + F + Rabs kp * E) / ki). { apply (Rmult_le_reg_l ki); [exact Hi|]. unfold Rdiv. rewrite (Rmult_comm ki (_ * / ki)), Rmult_assoc, Rinv_l by lra. lra. }
      eapply Rle_trans; [apply Rabs_triang|]. rewrite Rabs_mult, (Rabs_pos_eq (aw_tau _)) by exact Ht. pose proof (Rmult_le_compat_l (aw_tau (cc_aw c0)) _ _ Ht M1). unfold G. lra. }
    eapply Rle_trans; [apply (IH c1 c'); try congruence|]. fold G. apply Rmax_lub; [exact Hnext|apply Rmax_r].
Qed.

Lemma np_bin_wide f a b c n : np_bin f a b = Ok c -> length a = n -> (2 <= n)%nat -> length c = n.
Proof.
  unfold np_bin. intros H La Hn. destruct (Nat.eqb_spec (length a) (length b)) as [E|E]; [injection H as <-; rewrite map2_len by exact E; exact La|].
  destruct a as [|a0 [|a1 a]]; cbn in La; try lia. destruct b as [|b0 [|b1 b]]; try discriminate H. injection H as <-. cbn. rewrite map_length. lia.
Qed.
(** ** Tuned controllers *)
Lemma dict_item_In {V} k (d : dict V) v : dict_item k d = Ok v -> In (k, v) d.
Proof.
  unfold dict_item. induction d as [|[k' v'] d IH]; cbn [dict_get]; [discriminate|]. destruct (String.eqb_spec k' k) as [->|H].
  - intros E. injection E as ->. left; reflexivity.
  - intros E. right. apply IH. exact E.
Qed.
(** Number of controlled currents of a motor. *)
Definition axes (m : string) : nat := match dict_item m currents with Ok cs => length cs | Err _ => O end.
Lemma one_length f d l : one f d = Ok l -> length l = 1%nat.
Proof. unfold one. intros H. apply bind_ok in H. destruct H as (x & _ & H). injection H as <-. reflexivity. Qed.
Lemma two_length f g d l : two f g d = Ok l -> length l = 2%nat.
Proof. unfold two. intros H. apply bind_ok in H. destruct H as (x & _ & H). apply bind_ok in H. destruct H as (y & _ & H). injection H as <-. reflexivity. Qed.
Lemma three_length f g h d l : three f g h d = Ok l -> length l = 3%nat.
Proof. unfold three. intros H. apply bind_ok in H. destruct H as (x & _ & H). apply bind_ok in H. destruct H as (y & _ & H). apply bind_ok in H. destruct H as (z & _ & H). injection H as <-. reflexivity. Qed.
Ltac reader_cases H :=
  match type of H with
  | In _ _ => cbn [In] in H; repeat (destruct H as [H|H]; [injection H as <- <-; intros d l E; first [apply one_length in E|apply two_length in E|apply three_length in E]; exact E|]); destruct H
  end.
Lemma l_length m f : In (m, f) l_reader -> forall d l, f d = Ok l -> length l = axes m.
Proof. intros H. unfold l_reader in H. reader_cases H. Qed.
Lemma l_emf_length m f : In (m, f) l_emf_reader -> forall d l, f d = Ok l -> length l = axes m.
Proof. intros H. unfold l_emf_reader in H. reader_cases H. Qed.
Lemma psi_length m f : In (m, f) psi_reader -> forall d l, f d = Ok l -> length l = axes m.
Proof. intros H. unfold psi_reader in H. reader_cases H. Qed.
Lemma tau_loop_length m f : In (m, f) tau_current_loop_reader -> forall d l, f d = Ok l -> length l = axes m.
Proof. intros H. unfold tau_current_loop_reader in H. reader_cases H. Qed.
Lemma read_length t m e l : (forall f, In (m, f) t -> forall d l, f d = Ok l -> length l = axes m) -> read t m e = Ok l -> length l = axes m.
Proof. intros Ht H. unfold read in H. apply bind_ok in H. destruct H as (f & Ef & H). apply dict_item_In in Ef. exact (Ht f Ef _ _ H). Qed.
Lemma currents_axes m cs : dict_item m currents = Ok cs -> length cs = axes m.
Proof. unfold axes. intros ->. reflexivity. Qed.
Lemma voltages_axes m us : dict_item m voltages = Ok us -> length us = axes m.
Proof. intros H. apply dict_item_In in H. cbn [In voltages] in H. repeat (destruct H as [H|H]; [injection H as <- <-; reflexivity|]). destruct H. Qed.
Lemma emf_currents_axes m us : dict_item m emf_currents = Ok us -> length us = axes m.
Proof. intros H. apply dict_item_In in H. cbn [In emf_currents] in H. repeat (destruct H as [H|H]; [injection H as <- <-; reflexivity|]). destruct H. Qed.
Lemma indices_length e names : forall idx, indices e names = Ok idx -> length idx = length names.
Proof. induction names as [|n names IH]; cbn [indices]; intros idx H; [injection H as <-; reflexivity|]. apply bind_ok in H. destruct H as (i & _ & H). apply bind_ok in H. destruct H as (is & E & H). injection H as <-. cbn. rewrite (IH is E). reflexivity. Qed.
Lemma ranges_inv e idx m r n : length idx = n -> ranges e idx m = Ok r -> exists l lo hi, select idx (ce_limits e) = Ok l /\ select idx (ce_low e) = Ok lo /\ select idx (ce_high e) = Ok hi /\
  length (fst r) = n /\ length (snd r) = n /\ forall k, (k < n)%nat -> comp k (fst r) = comp k lo * (comp k l * (1 - m)) /\ comp k (snd r) = comp k hi * (comp k l * (1 - m)).
Proof.
  intros L H. unfold ranges in H. apply bind_ok in H. destruct H as (l & E1 & H). apply bind_ok in H. destruct H as (lo & E2 & H). apply bind_ok in H. destruct H as (hi & E3 & H). apply bind_ok in H. destruct H as (lo' & E4 & H). apply bind_ok in H. destruct H as (hi' & E5 & H). injection H as <-.
  pose proof (select_length _ _ _ E1) as L1. pose proof (select_length _ _ _ E2) as L2. pose proof (select_length _ _ _ E3) as L3. rewrite L in L1, L2, L3.
  assert (L4 : length (map (fun x => x * (1 - m)) l) = n) by (rewrite map_length; exact L1). destruct (np_bin_inv _ _ _ _ n E4 L2 L4) as [A1 A2]. destruct (np_bin_inv _ _ _ _ n E5 L3 L4) as [B1 B2].
  exists l, lo, hi. repeat (split; [assumption|]). intros k Hk. cbn [fst snd]. rewrite A2, B2 by exact Hk. rewrite (comp_map (fun x => x * (1 - m))) by lia. split; reflexivity.
Qed.
Lemma id_parts id m : motor_type id = Ok m -> unpack_motor id = Ok m.
Proof.
  unfold motor_type, id_part, unpack_motor. pose proof (firstn_le_length 3 (split_dash id)) as L. fold (split_env_id id) in L. destruct (split_env_id id) as [|x [|y [|z [|w l]]]]; cbn; try discriminate; [intros H; exact H|].
  cbn in L. lia.
Qed.
Lemma base_tuned k b e id a b' m : (k = KPI \/ k = KPID) -> b = base_new k CC -> base_tune_pos b e id a = Ok b' -> motor_type id = Ok m ->
  exists l cs idx, read l_reader m e = Ok l /\ dict_item m currents = Ok cs /\ indices e cs = Ok idx /\ b_idx b' = Some idx /\ b_kind b' = k /\ b_tau b' = Some (ce_tau e) /\
    b_p b' = map (fun x => x / (ce_tau e * a)) l /\ b_i b' = i_gain_set (map (fun x => x / (ce_tau e * (a * a))) (b_p b')) /\
    (k = KPID -> b_d b' = map (fun x => x * ce_tau e) (b_p b') /\ b_last b' = repeat 0 (length (b_p b'))).
Proof.
  intros Hk -> H Hm. apply id_parts in Hm. assert (H1 : exists b1, pi_tune_current (base_new k CC) e id a = Ok b1 /\ (if match k with KPID => true | _ => false end then pid_d_gain b1 else Ok b1) = Ok b').
  { destruct Hk as [-> | ->]; cbn [base_tune_pos base_new b_kind] in H; unfold pi_tune in H; cbn [base_new b_kind b_task] in H; apply bind_ok in H; destruct H as (b1 & E1 & H); exists b1; split; assumption. }
  destruct H1 as (b1 & E1 & E2). unfold pi_tune_current in E1. apply bind_ok in E1. destruct E1 as (b0 & E0 & E1). unfold p_tune_current in E0. rewrite Hm in E0. cbn [bind] in E0. apply bind_ok in E0. destruct E0 as (l & El & E0). apply bind_ok in E0. destruct E0 as (cs & Ecs & E0). apply bind_ok in E0. destruct E0 as (us & Eus & E0).
  apply bind_ok in E0. destruct E0 as (ui & Eui & E0). apply bind_ok in E0. destruct E0 as (ci & Eci & E0). apply bind_ok in E0. destruct E0 as (rg & Erg & E0). injection E0 as <-. injection E1 as <-. exists l, cs, ci. split; [exact El|]. split; [exact Ecs|]. split; [exact Eci|].
  destruct Hk as [-> | ->]; cbn [base_gains base_new b_p b_i b_tau b_idx b_kind b_d b_last pid_d_gain] in E2; injection E2 as <-; cbn [b_p b_i b_tau b_idx b_kind b_d b_last]; repeat split; discriminate || reflexivity.
Qed.
Lemma emf_tuned k e id f' m : emf_tune (emf_new k) e id = Ok f' -> motor_type id = Ok m -> k = (if str_in m induction_motors then EInd else if String.eqb m "EESM" then EEesm else EPlain) -> emf_shape (axes m) f'.
Proof.
  intros H Hm Hk. unfold emf_tune in H. apply bind_ok in H. destruct H as (g & Eg & H). unfold emf_tune_base in Eg. rewrite Hm in Eg. cbn [bind] in Eg. apply bind_ok in Eg. destruct Eg as (om & _ & Eg). apply bind_ok in Eg. destruct Eg as (names & En & Eg). apply bind_ok in Eg. destruct Eg as (cur & Ec & Eg). apply bind_ok in Eg. destruct Eg as (l & El & Eg).
  apply bind_ok in Eg. destruct Eg as (psi & Ep & Eg). apply bind_ok in Eg. destruct Eg as (pr & _ & Eg). apply bind_ok in Eg. destruct Eg as (p & _ & Eg). apply bind_ok in Eg. destruct Eg as (us & _ & Eg). apply bind_ok in Eg. destruct Eg as (ui & _ & Eg). apply bind_ok in Eg. destruct Eg as (rg & _ & Eg). injection Eg as <-.
  pose proof (read_length _ _ _ _ (l_emf_length m) El) as L1. pose proof (read_length _ _ _ _ (psi_length m) Ep) as L2. pose proof (indices_length _ _ _ Ec) as L3. rewrite (emf_currents_axes _ _ En) in L3. cbn [emf_new ef_kind] in H. destruct k.
  - injection H as <-. exact (conj L1 (conj L3 L2)).
  - assert (EM : m = "EESM"). { destruct (str_in m induction_motors); [discriminate|]. destruct (String.eqb_spec m "EESM"); [assumption|discriminate]. }
    cbn [ef_kind ef_p ef_l ef_psi ef_cur ef_om ef_rr ef_lr ef_isq ef_abs] in H. repeat (apply bind_ok in H; destruct H as (? & _ & H)). injection H as <-. rewrite EM in *. exact (conj L1 (conj L3 (conj eq_refl (conj eq_refl (conj eq_refl eq_refl))))).
  - assert (EM : axes m = 2%nat \/ axes m = O). { destruct (str_in m induction_motors) eqn:Ei; [|destruct (String.eqb m "EESM"); discriminate]. unfold str_in, induction_motors in Ei. cbn [existsb] in Ei. destruct (String.eqb_spec "DFIM" m) as [<-|]; [right; reflexivity|]. destruct (String.eqb_spec "SCIM" m) as [<-|]; [left; reflexivity|]. destruct (String.eqb_spec m "DFIM"); [congruence|]; destruct (String.eqb_spec m "SCIM"); [congruence|]; discriminate. }
    cbn [ef_kind ef_p ef_l ef_psi ef_cur ef_om ef_lm ef_ie ef_dec ef_act ef_cidx] in H. repeat (apply bind_ok in H; destruct H as (? & _ & H)). injection H as <-. assert (EM' : axes m = 2%nat). { destruct EM as [EM|EM]; [exact EM|]. exfalso. apply dict_item_In in En. rewrite EM in L3. apply indices_length in Ec. cbn [In emf_currents] in En. repeat (destruct En as [En|En]; [injection En as <- <-; discriminate EM|]). destruct En. }
    exact (conj L1 (conj L3 EM')).
Qed.
Lemma env_proper_at e i : env_proper e -> (i < length (ce_limits e))%nat -> 0 < comp i (ce_limits e) /\ -1 <= comp i (ce_low e) <= comp i (ce_high e) /\ comp i (ce_high e) <= 1.
Proof. intros (_ & _ & H) Hi. exact (H i Hi). Qed.
Lemma select_bound {A} idx (l : list A) v : select idx l = Ok v -> Forall (fun i => (i < length l)%nat) idx.
Proof.
  revert v. induction idx as [|i idx IH]; intros v H; [constructor|]. cbn [select] in H. destruct (nth_error l i) as [x|] eqn:E; [|discriminate]. constructor; [apply nth_error_Some; congruence|].
  destruct (select idx l) as [w|] eqn:E2; [|discriminate]. exact (IH w eq_refl).
Qed.
Lemma unit_product x l b : -1 <= x <= 1 -> 0 < l -> b = x * (l * (1 - 0)) -> Rabs b <= l.
Proof. intros Hx Hl ->. apply Rabs_le. nra. Qed.
Lemma clip_tuned id e m c c' : clip_tune c e id 0 = Ok c' -> motor_type id = Ok m -> c = (if String.eqb m "EESM" then comb_new CC else if str_in m ac_motors then sq_new CC else abs_new CC) -> env_proper e ->
  exists us ui lim, dict_item m voltages = Ok us /\ indices e us = Ok ui /\ select ui (ce_limits e) = Ok lim /\ clip_shape (axes m) (cs_clip c') /\ clip_proper (axes m) (cs_clip c') /\
    forall k, (k < axes m)%nat -> clip_bound k (cs_clip c') <= comp k lim.
Proof.
  intros H Hm Hc He. unfold clip_tune in H. rewrite Hm in H. cbn [bind] in H. assert (Et : cs_task c = CC) by (rewrite Hc; destruct (String.eqb m "EESM"), (str_in m ac_motors); reflexivity).
  unfold clip_names in H. rewrite Et in H. apply bind_ok in H. destruct H as (us & Eus & H). apply bind_ok in H. destruct H as (ui & Eui & H). pose proof (indices_length _ _ _ Eui) as Lu. rewrite (voltages_axes _ _ Eus) in Lu.
  assert (Hpos : forall lim, select ui (ce_limits e) = Ok lim -> length lim = axes m /\ forall k, (k < axes m)%nat -> 0 < comp k lim).
  { intros lim El. split; [rewrite (select_length _ _ _ El); exact Lu|]. intros k Hk. pose proof (select_bound _ _ _ El) as Hb. rewrite Forall_forall in Hb. rewrite (select_comp _ _ _ k El) by lia. apply env_proper_at; [exact He|]. apply Hb. apply nth_In. lia. }
  assert (Hrg : forall r, ranges e ui 0 = Ok r -> exists lim, select ui (ce_limits e) = Ok lim /\ length (fst r) = axes m /\ length (snd r) = axes m /\ forall k, (k < axes m)%nat -> comp k (fst r) <= comp k (snd r) /\ Rabs (comp k (fst r)) <= comp k lim /\ Rabs (comp k (snd r)) <= comp k lim).
  { intros r Hr. destruct (ranges_inv _ _ _ _ _ Lu Hr) as (lim & lo & hi & E1 & E2 & E3 & L1 & L2 & C). exists lim. split; [exact E1|]. split; [exact L1|]. split; [exact L2|]. intros k Hk. destruct (C k Hk) as [C1 C2]. destruct (Hpos lim E1) as [Ll Hp]. specialize (Hp k Hk).
    pose proof (select_bound _ _ _ E1) as Hb. rewrite Forall_forall in Hb. assert (Hi : (nth k ui O < length (ce_limits e))%nat) by (apply Hb, nth_In; lia). pose proof (env_proper_at e _ He Hi) as (_ & P2 & P3).
    rewrite (select_comp _ _ _ k E2) in C1 by lia. rewrite (select_comp _ _ _ k E3) in C2 by lia. split; [rewrite C1, C2; apply Rmult_le_compat_r; lra|]. split; [eapply unit_product; [|exact Hp|exact C1]; lra|eapply unit_product; [|exact Hp|exact C2]; lra]. }
  destruct (String.eqb_spec m "EESM") as [EM|EM].
  - rewrite Hc in H. cbn [comb_new cs_clip cs_task] in H. apply bind_ok in H. destruct H as (r & Er & H). apply bind_ok in H. destruct H as (l & El & H). apply bind_ok in H. destruct H as (lim2 & E2 & H). apply bind_ok in H. destruct H as (lo & Elo & H). apply bind_ok in H. destruct H as (hi & Ehi & H). injection H as <-.
    exists us, ui, l. split; [exact Eus|]. split; [exact Eui|]. split; [exact El|]. cbn [cs_clip clip_shape clip_proper clip_bound]. destruct (Hpos l El) as [Ll Hp]. destruct (Hrg r Er) as (l' & El' & R1 & R2 & RC). assert (l' = l) by congruence. subst l'.
    assert (A3 : axes m = 3%nat) by (rewrite EM; reflexivity). rewrite A3 in *. pose proof (select_length _ _ _ Elo) as L1. pose proof (select_length _ _ _ Ehi) as L2. pose proof (select_length _ _ _ E2) as L3. cbn [length] in L1, L2, L3.
    assert (Clo : comp 0 lo = comp 2 (fst r)) by (rewrite (select_comp _ _ _ 0%nat Elo) by (cbn; lia); reflexivity). assert (Chi : comp 0 hi = comp 2 (snd r)) by (rewrite (select_comp _ _ _ 0%nat Ehi) by (cbn; lia); reflexivity).
    assert (Cl : forall k, (k < 2)%nat -> comp k lim2 = comp k l). { intros k Hk. rewrite (select_comp _ _ _ k E2) by (cbn; lia). replace (nth k [0; 1]%nat 0%nat) with k by (destruct k as [|[|]]; [reflexivity|reflexivity|lia]). rewrite (comp_map (fun x => x * (1 - 0))) by lia. ring. }
    split; [auto|]. split.
    + split; [lra|]. split; [intros k Hk; rewrite Cl by exact Hk; specialize (Hp k ltac:(lia)); lra|]. rewrite Clo, Chi. apply RC. lia.
    + intros k Hk. destruct (Nat.ltb_spec k 2) as [H2|H2]; [rewrite Cl by exact H2; rewrite Rabs_pos_eq by (apply Rlt_le, Hp; lia); lra|]. assert (k = 2%nat) by lia. subst k. rewrite Clo, Chi. apply Rmax_lub; apply (RC 2%nat); lia.
  - destruct (str_in m ac_motors).
    + rewrite Hc in H. cbn [sq_new cs_clip cs_task cs_diff] in H. apply bind_ok in H. destruct H as (l & El & H). injection H as <-. exists us, ui, l. destruct (Hpos l El) as [Ll Hp]. cbn [cs_clip clip_shape clip_proper clip_bound]. repeat (split; [assumption|]). split; [split; [lra|intros k Hk; specialize (Hp k Hk); lra]|].
      intros k Hk. rewrite Rabs_pos_eq; [lra|]. apply Rlt_le, Hp, Hk.
    + rewrite Hc in H. cbn [abs_new cs_clip cs_task] in H. apply bind_ok in H. destruct H as (r & Er & H). injection H as <-. destruct (Hrg r Er) as (l & El & R1 & R2 & RC). exists us, ui, l. cbn [cs_clip clip_shape clip_proper clip_bound]. split; [exact Eus|]. split; [exact Eui|]. split; [exact El|]. split; [split; [exact R1|exact R2]|].
      split; [intros k Hk; apply RC, Hk|]. intros k Hk. apply Rmax_lub; apply (RC k Hk).
Qed.
Lemma cc_tuned id name dec e a c0 c m : cc_new id name dec = Ok c0 -> (name = "PI" \/ name = "PID") -> cc_tune c0 e id a = Ok c -> motor_type id = Ok m -> env_proper e ->
  shaped (axes m) (cc_reset c) /\ b_kind (cc_base c) = (if String.eqb name "PI" then KPI else KPID) /\ b_idx (cc_base c) = Some (aw_idx (cc_aw c)) /\ aw_tau (cc_aw c) = ce_tau e /\ clip_proper (axes m) (cs_clip (cc_clip c)) /\
  b_int (cc_base (cc_reset c)) = repeat 0 (axes m) /\ cc_dec c = dec /\
  exists l us ui lim, read l_reader m e = Ok l /\ dict_item m voltages = Ok us /\ indices e us = Ok ui /\ select ui (ce_limits e) = Ok lim /\
    forall k, (k < axes m)%nat -> clip_bound k (cs_clip (cc_clip c)) <= comp k lim /\ comp k (b_p (cc_base c)) = comp k l / (ce_tau e * a) /\ comp k (b_i (cc_base c)) = Rmax (comp k l / (ce_tau e * a) / (ce_tau e * (a * a))) 0.
Proof.
  intros H0 Hn H Hm He. unfold cc_new in H0. rewrite Hm in H0. cbn [bind] in H0. apply bind_ok in H0. destruct H0 as (kd & Ek & H0). injection H0 as <-.
  assert (HK : kd = (if String.eqb name "PI" then KPI else KPID)). { destruct Hn as [-> | ->]; injection Ek as <-; reflexivity. } assert (HK2 : kd = KPI \/ kd = KPID) by (rewrite HK; destruct (String.eqb name "PI"); auto).
  unfold cc_tune in H. apply bind_ok in H. destruct H as (at_ & _ & H). rewrite Hm in H. cbn [bind] in H. apply bind_ok in H. destruct H as (ab & _ & H). apply bind_ok in H. destruct H as (ef & Eef & H). apply bind_ok in H. destruct H as (b & Eb & H). apply bind_ok in H. destruct H as (w & Ew & H). apply bind_ok in H. destruct H as (cl & Ecl & H). apply bind_ok in H. destruct H as (us' & _ & H). apply bind_ok in H. destruct H as (loop & _ & H). injection H as <-.
  cbn [cc_base cc_emf cc_aw cc_clip] in Eef, Eb, Ew, Ecl. destruct (base_tuned _ _ _ _ _ _ _ HK2 eq_refl Eb Hm) as (l & cs & idx & El & Ecs & Eidx & B1 & B2 & B3 & B4 & B5 & B6).
  unfold windup_tune in Ew. rewrite Hm in Ew. cbn [bind windup_new aw_task] in Ew. rewrite Ecs in Ew. cbn [bind] in Ew. rewrite Eidx in Ew. cbn [bind] in Ew. injection Ew as <-.
  destruct (clip_tuned _ _ _ _ _ Ecl Hm eq_refl He) as (us & ui & lim & Eus & Eui & Elim & Sh & Pr & Bd).
  pose proof (read_length _ _ _ _ (l_length m) El) as Ll. pose proof (indices_length _ _ _ Eidx) as Li. rewrite (currents_axes _ _ Ecs) in Li. assert (Lp : length (b_p b) = axes m) by (rewrite B4, map_length; exact Ll). assert (Lg : length (b_i b) = axes m) by (rewrite B5; unfold i_gain_set; rewrite !map_length; exact Lp).
  assert (HI : has_integrator b = true) by (unfold has_integrator; rewrite B2; destruct HK2 as [-> | ->]; reflexivity).
  cbn [cc_base cc_aw cc_clip cc_dec aw_idx aw_tau]. split; [|split; [congruence|split; [exact B1|split; [reflexivity|split; [exact Pr|split]]]]].
  - unfold cc_reset, base_reset. cbn [cc_base cc_aw cc_clip cc_dec cc_upd cc_emf]. rewrite HI. split; [|split; [|split]]; cbn [cc_base cc_upd cc_dec cc_emf cc_clip cc_aw aw_idx].
    + unfold base_shape. cbn [base_set_int b_p b_i b_int b_idx b_kind b_d b_last]. split; [exact Lp|]. split; [exact Lg|]. split; [rewrite repeat_length; exact Lg|]. split; [exists idx; auto|]. rewrite B2. destruct HK2 as [-> | EK]; [exact I|]. destruct (B6 EK) as [D1 D2]. rewrite EK, D1, D2, map_length, repeat_length. auto.
    + intros _. exact (emf_tuned _ _ _ _ _ Eef Hm eq_refl).
    + destruct cl as [t q d]. exact Sh.
    + exact Li.
  - unfold cc_reset, base_reset. cbn [cc_base cc_upd]. rewrite HI. cbn [base_set_int b_int]. rewrite Lg. reflexivity.
  - split; [reflexivity|]. exists l, us, ui, lim. repeat (split; [assumption|]). intros k Hk. split; [apply Bd, Hk|]. split; [rewrite B4, (comp_map (fun x => x / (ce_tau e * a))) by lia; reflexivity|].
    rewrite B5. unfold i_gain_set. rewrite (comp_map (fun x => Rmax x 0)) by (rewrite map_length; lia). rewrite (comp_map (fun x => x / (ce_tau e * (a * a)))) by lia. rewrite B4, (comp_map (fun x => x / (ce_tau e * a))) by lia. reflexivity.
Qed.
