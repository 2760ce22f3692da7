(** C120: tuned current controllers never raise. *)
From Verif Require Import PyBaseFacts PyDictFacts Transform_Model Transform_Proofs Conv_Model Wrap_Model Ctl_Model Ctl_Model2 Ctl_Spec Ctl_Proofs Ctl_Proofs2 Ctl_Props.
Local Open Scope string_scope. Local Open Scope list_scope. Local Open Scope R_scope.

Definition within (N : nat) (idx : list nat) : Prop := Forall (fun i => (i < N)%nat) idx.
Lemma select_within idx s : within (length s) idx -> exists x : list R, select idx s = Ok x /\ length x = length idx.
Proof. intros H. unfold within in H. rewrite Forall_forall in H. destruct (select_ok idx s H) as (x & E & L & _). eauto. Qed.
Lemma item_ok s i : (i < length s)%nat -> exists x : R, item s i = Ok x.
Proof. intros H. unfold item. destruct (nth_error s i) as [x|] eqn:E; [eauto|]. apply nth_error_None in E. lia. Qed.
Lemma str_index_lt name l i : str_index name l = Ok i -> (i < length l)%nat.
Proof. intros H. apply str_index_ok in H. apply nth_error_Some. congruence. Qed.
Lemma indices_within e names : forall idx, indices e names = Ok idx -> within (length (ce_names e)) idx.
Proof. induction names as [|n names IH]; cbn [indices]; intros idx H; [injection H as <-; constructor|]. apply bind_ok in H. destruct H as (i & Ei & H). apply bind_ok in H. destruct H as (is & E & H). injection H as <-. constructor; [exact (str_index_lt _ _ _ Ei)|exact (IH is E)]. Qed.

(** Invariants of a tuned and reset controller for [n] currents and states of length [N]. *)
Definition base_live (n N : nat) (b : base) : Prop :=
  length (b_p b) = n /\ (exists idx, b_idx b = Some idx /\ length idx = n /\ within N idx) /\
  match b_kind b with
  | KP => True
  | KPI => length (b_i b) = n /\ length (b_int b) = n
  | KPID => length (b_i b) = n /\ length (b_int b) = n /\ length (b_d b) = n /\ length (b_last b) = n /\ exists t, b_tau b = Some t
  | _ => False
  end.
Definition emf_live (n N : nat) (f : emf) : Prop :=
  emf_shape n f /\ within N (ef_cur f) /\ (ef_om f < N)%nat /\
  match ef_kind f with EPlain => True | EEesm => (ef_ie f < N)%nat /\ within N (ef_cidx f) | EInd => (ef_isq f < N)%nat /\ (ef_abs f < N)%nat end.
Definition abc_live (n N : nat) (t : abc) : Prop := (ab_angle t < N)%nat /\ (ab_om t < N)%nat /\ ((ab_len t = 3 /\ n = 2) \/ (ab_len t = 4 /\ n = 3))%nat.
Definition live (n N : nat) (c : cctl) : Prop :=
  base_live n N (cc_base c) /\ (cc_dec c = true -> emf_live n N (cc_emf c)) /\ clip_shape n (cs_clip (cc_clip c)) /\ (length (aw_idx (cc_aw c)) = n /\ within N (aw_idx (cc_aw c))) /\ (cc_req c = true -> abc_live n N (cc_abc c)).

Lemma p_part_ok n b s r : length (b_p b) = n -> length s = n -> length r = n -> exists x, p_part b s r = Ok x /\ length x = n.
Proof. intros H1 H2 H3. unfold p_part. destruct (np_bin_ok Rminus r s n H3 H2) as (x & -> & Lx & _). cbn [bind]. destruct (np_bin_ok Rmult (b_p b) x n H1 Lx) as (y & E & Ly & _). eauto. Qed.
Lemma base_live_call n b s r : base_live n (length s) b -> length r = n -> exists b' u, base_call b s r = (b', Ok u) /\ length u = n /\ base_live n (length s) b' /\ base_static b b'.
Proof.
  intros (Hp & (idx & Ei & Li & Wi) & Hk) Hr. destruct (select_within _ _ Wi) as (x & Ex & Lx). rewrite Li in Lx. destruct (p_part_ok n b x r Hp Lx Hr) as (pp & Epp & Lpp).
  assert (PI : length (b_i b) = n -> length (b_int b) = n -> exists u, pi_control b s r = Ok u /\ length u = n).
  { intros I1 I2. unfold pi_control, base_states. rewrite Ei, Ex. cbn [bind]. rewrite Epp. cbn [bind]. unfold i_part. destruct (np_bin_ok Rmult (b_i b) (b_int b) n I1 I2) as (ip & -> & Lip & _). cbn [bind]. destruct (np_bin_ok Rplus pp ip n Lpp Lip) as (u & E & L & _). eauto. }
  unfold base_call. destruct (b_kind b) eqn:K; try contradiction.
  - unfold base_states. rewrite Ei, Ex. cbn [bind]. rewrite Epp. exists b, pp. split; [reflexivity|]. split; [exact Lpp|]. split; [split; [exact Hp|split; [eauto|rewrite K; exact I]]|repeat split; assumption].
  - destruct Hk as [I1 I2]. destruct (PI I1 I2) as (u & -> & Lu). exists b, u. split; [reflexivity|]. split; [exact Lu|]. split; [split; [exact Hp|split; [eauto|rewrite K; auto]]|repeat split; assumption].
  - destruct Hk as (I1 & I2 & D1 & D2 & t & T). destruct (PI I1 I2) as (u & -> & Lu). cbn [bind]. unfold base_states. rewrite Ei, Ex. cbn [bind]. destruct (np_bin_ok Rminus r x n Hr Lx) as (er & -> & Ler & _). cbn [bind]. unfold d_part. destruct (np_bin_ok Rminus er (b_last b) n Ler D2) as (de & -> & Lde & _). cbn [bind]. destruct (np_bin_ok Rmult (b_d b) de n D1 Lde) as (dd & -> & Ldd & _). cbn [bind]. rewrite T. cbn [bind fst snd].
    assert (Ldd' : length (map (fun v => v / t) dd) = n) by (rewrite map_length; exact Ldd). destruct (np_bin_ok Rplus u _ n Lu Ldd') as (o & -> & Lo & _). exists (base_set_last b er), o. split; [reflexivity|]. split; [exact Lo|]. split; [|repeat split; reflexivity || assumption].
    split; [exact Hp|]. cbn [base_set_last b_idx b_kind b_i b_int b_d b_last b_tau]. split; [eauto|]. rewrite K. repeat split; eauto.
Qed.
Lemma emf_plain_ok n f psi s r : length (ef_l f) = n -> length (ef_cur f) = n -> within (length s) (ef_cur f) -> (ef_om f < length s)%nat -> length psi = n -> length r = n -> exists y, emf_plain f psi s r = Ok y /\ length y = n.
Proof.
  intros H1 H2 W Ho H3 Hr. unfold emf_plain. destruct (select_within _ _ W) as (cur & -> & Lc). rewrite H2 in Lc. cbn [bind]. destruct (item_ok _ _ Ho) as (w & ->). cbn [bind]. destruct (np_bin_ok Rmult (ef_l f) cur n H1 Lc) as (x & -> & Lx & _). cbn [bind]. destruct (np_bin_ok Rplus x psi n Lx H3) as (z & -> & Lz & _). cbn [bind].
  assert (Lz' : length (map (fun v => v * (w * ef_p f)) z) = n) by (rewrite map_length; exact Lz). destruct (np_bin_ok Rplus r _ n Hr Lz') as (y & E & Ly & _). eauto.
Qed.
Lemma emf_live_call n f s r : emf_live n (length s) f -> length r = n -> exists y, emf_call f s r = Ok y /\ length y = n.
Proof.
  intros ((H1 & H2 & H3) & W & Ho & Hk) Hr. unfold emf_call. destruct (ef_kind f).
  - apply emf_plain_ok; assumption.
  - destruct H3 as (-> & D1 & D2 & D3). destruct Hk as [K1 K2]. destruct (item_ok _ _ K1) as (ie & ->). cbn [bind]. destruct (emf_plain_ok 3 f [0; ef_lm f * ie; 0] s r H1 H2 W Ho eq_refl Hr) as (act & -> & La). cbn [bind]. destruct (select_within _ _ K2) as (cur & -> & Lc). rewrite D3 in Lc. cbn [bind].
    destruct (np_bin_ok Rmult (ef_dec f) cur 3 D1 Lc) as (x & -> & Lx & _). cbn [bind]. destruct (np_bin_ok Rplus act x 3 La Lx) as (a2 & -> & L2 & _). cbn [bind]. assert (W3 : within (length a2) [2; 1; 0]%nat) by (rewrite L2; repeat constructor). destruct (select_within _ _ W3) as (pm & -> & Lp). cbn [bind]. destruct (np_bin_ok Rmult (ef_act f) pm 3 D2 Lp) as (y & -> & Ly & _). cbn [bind]. destruct (np_bin_ok Rplus a2 y 3 L2 Ly) as (z & E & Lz & _). eauto.
  - rewrite H3 in *. destruct Hk as [K1 K2]. destruct (item_ok _ _ Ho) as (w & ->). cbn [bind]. destruct (item_ok _ _ K1) as (isq & ->). cbn [bind]. destruct (item_ok _ _ K2) as (ab & ->). cbn [bind]. destruct (select_within _ _ W) as (cur & -> & Lc). rewrite H2 in Lc. cbn [bind].
    set (ws := w + _). assert (Ll : length (map (fun l => ws * l) (ef_l f)) = 2%nat) by (rewrite map_length; exact H1). destruct (np_bin_ok Rmult _ cur 2 Ll Lc) as (x & -> & Lx & _). cbn [bind]. destruct (np_bin_ok Rplus r x 2 Hr Lx) as (y & -> & Ly & _). cbn [bind]. match goal with |- context [np_bin Rplus y ?z] => destruct (np_bin_ok Rplus y z 2 Ly eq_refl) as (o & E & Lo & _) end. eauto.
Qed.
Lemma clipped_ok n cl y : clip_shape n cl -> length y = n -> exists v, clipped cl y = Ok v /\ length v = n.
Proof.
  intros Hs Ly. assert (H : exists v, clipped cl y = Ok v).
  { destruct cl as [lo hi|lim m|lim lo hi m]; cbn [clip_shape clipped] in *.
    - destruct Hs as [H1 H2]. exact (np_clips_ok y lo hi n Ly H1 H2).
    - eexists. apply sq_clip_val. congruence.
    - destruct Hs as (-> & H1 & H2 & H3). destruct y as [|y0 [|y1 [|y2 [|]]]]; try discriminate Ly. cbn [select nth_error bind]. rewrite sq_clip_val by (rewrite H1; reflexivity). cbn [bind]. destruct (np_clips_ok [y2] lo hi 1 eq_refl H2 H3) as (v & ->). cbn [bind]. eauto. }
  destruct H as (v & E). exists v. split; [exact E|]. exact (clipped_length _ _ _ _ Hs Ly E).
Qed.
Lemma abc_live_call n t s r : abc_live n (length s) t -> length r = n -> exists out, abc_call t s r = Ok out /\ length out = ab_len t.
Proof.
  intros (H1 & H2 & H3) Hr. unfold abc_call. destruct (item_ok _ _ H1) as (eps & ->). cbn [bind]. destruct (item_ok _ _ H2) as (w & ->). cbn [bind]. destruct H3 as [[-> Hn]|[-> Hn]]; rewrite Hn in Hr.
  - destruct r as [|r0 [|r1 [|]]]; try discriminate Hr. cbn. eauto.
  - destruct r as [|r0 [|r1 [|r2 [|]]]]; try discriminate Hr. cbn. eauto.
Qed.
(** One step. *)
Lemma live_step n N c s r : live n N c -> length s = N -> length r = n -> exists c' out, current_control c s r = (c', Ok out) /\ live n N c' /\ cc_req c' = cc_req c /\ cc_abc c' = cc_abc c /\ length out = (if cc_req c then ab_len (cc_abc c) else n).
Proof.
  intros (Hb & He & Hc & (Hw1 & Hw2) & Ha) Hs Hr. subst N. destruct (base_live_call n _ s r Hb Hr) as (b & u & Eb & Lu & Hb' & Hst).
  assert (E1 : exists y, (if cc_dec c then emf_call (cc_emf c) s u else Ok u) = Ok y /\ length y = n). { destruct (cc_dec c); [apply emf_live_call; auto|eauto]. } destruct E1 as (y & Ey & Ly).
  destruct (clipped_ok n _ y Hc Ly) as (v & Ev & Lv). destruct (np_bin_ok Rminus y v n Ly Lv) as (df & Ed & Ld & _).
  assert (E2 : exists out, (if cc_req c then abc_call (cc_abc c) s y else Ok y) = Ok out /\ length out = (if cc_req c then ab_len (cc_abc c) else n)). { destruct (cc_req c); [apply (abc_live_call n); auto|eauto]. } destruct E2 as (out & Eo & Lo).
  destruct (select_within _ _ Hw2) as (x & Ex & Lx). rewrite Hw1 in Lx. destruct (np_bin_ok Rminus r x n Hr Lx) as (er & Eer & Ler & _).
  assert (L1 : length (map (fun q => aw_tau (cc_aw c) * q) er) = n) by (rewrite map_length; exact Ler). assert (L2 : length (map (fun d => if req d 0 then 1 else 0) df) = n) by (rewrite map_length; exact Ld).
  destruct (np_bin_ok Rmult _ _ n L1 L2) as (dz & Edz & Ldz & _).
  unfold current_control. rewrite Eb. cbn [bind]. rewrite Ey. unfold clip_call. rewrite Ev, Ed, Eo. destruct (has_integrator b) eqn:HI.
  - assert (Lz : length (b_int b) = n). { unfold has_integrator in HI. destruct Hb' as (_ & _ & Hk). destruct (b_kind b); try discriminate; try contradiction; tauto. }
    unfold windup_call. rewrite Ex. cbn [bind]. rewrite Eer. cbn [bind cs_diff]. rewrite Edz. cbn [bind]. unfold np_iadd. rewrite (proj2 (Nat.eqb_eq _ _)) by congruence. cbn [bind]. do 2 eexists. split; [reflexivity|]. split; [|split; [reflexivity|split; [reflexivity|exact Lo]]].
    split; [|split; [exact He|split; [exact Hc|split; [split; assumption|exact Ha]]]]. cbn [cc_upd cc_base]. destruct Hb' as (B1 & B2 & B3). split; [exact B1|]. split; [exact B2|]. cbn [base_set_int b_kind b_i b_int b_d b_last b_tau]. assert (Lm : length (map2 Rplus (b_int b) dz) = n) by (rewrite map2_len by congruence; exact Lz). destruct (b_kind b); tauto.
  - do 2 eexists. split; [reflexivity|]. split; [|split; [reflexivity|split; [reflexivity|exact Lo]]]. split; [exact Hb'|]. split; [exact He|]. split; [exact Hc|]. split; [split; assumption|exact Ha].
Qed.
Lemma live_run n N ins : forall c, live n N c -> Forall (fun i => length (fst i) = N /\ length (snd i) = n) ins -> exists c', cc_run c ins = Ok c' /\ live n N c' /\ cc_req c' = cc_req c /\ cc_abc c' = cc_abc c.
Proof.
  induction ins as [|[s r] ins IH]; intros c Hc Hl; cbn [cc_run]; [eauto|]. apply Forall_cons_iff in Hl. destruct Hl as [[H1 H2] Hl]. cbn [fst snd] in *. destruct (live_step n N c s r Hc H1 H2) as (c1 & out & -> & L1 & R1 & A1 & _). cbn [bind]. destruct (IH c1 L1 Hl) as (c' & E & L & R2 & A2). exists c'. repeat split; try assumption; try apply L; congruence.
Qed.
(** ** Tuning establishes the invariant *)
Lemma tuned_base_live e id name a b m kd : base_get name = Ok kd -> base_tune_pos (base_new kd CC) e id a = Ok b -> motor_type id = Ok m -> base_live (axes m) (length (ce_names e)) (base_reset b).
Proof.
  intros Hk H Hm. destruct kd; try discriminate H.
  - cbn [base_tune_pos base_new b_kind] in H. unfold p_tune in H. cbn [base_new b_task] in H. unfold p_tune_current in H. rewrite (id_parts _ _ Hm) in H. cbn [bind] in H. apply bind_ok in H. destruct H as (l & El & H). apply bind_ok in H. destruct H as (cs & Ecs & H). apply bind_ok in H. destruct H as (us & _ & H). apply bind_ok in H. destruct H as (ui & _ & H). apply bind_ok in H. destruct H as (ci & Eci & H). apply bind_ok in H. destruct H as (rg & _ & H). injection H as <-.
    unfold base_reset, has_integrator. cbn [base_gains base_new b_kind]. split; [cbn [base_gains b_p]; rewrite map_length; exact (read_length _ _ _ _ (l_length m) El)|]. split; [|exact I]. exists ci. split; [reflexivity|]. split; [rewrite (indices_length _ _ _ Eci); apply currents_axes, Ecs|exact (indices_within _ _ _ Eci)].
  - destruct (base_tuned _ _ _ _ _ _ _ (or_introl eq_refl) eq_refl H Hm) as (l & cs & ci & El & Ecs & Eci & B1 & B2 & B3 & B4 & B5 & _). pose proof (read_length _ _ _ _ (l_length m) El) as Ll.
    assert (Lp : length (b_p b) = axes m) by (rewrite B4, map_length; exact Ll). assert (Lg : length (b_i b) = axes m) by (rewrite B5; unfold i_gain_set; rewrite !map_length; exact Lp).
    unfold base_reset, has_integrator. rewrite B2. split; [exact Lp|]. split; [exists ci; split; [exact B1|split; [rewrite (indices_length _ _ _ Eci); apply currents_axes, Ecs|exact (indices_within _ _ _ Eci)]]|]. cbn [base_set_int b_kind b_i b_int]. rewrite B2, repeat_length. auto.
  - destruct (base_tuned _ _ _ _ _ _ _ (or_intror eq_refl) eq_refl H Hm) as (l & cs & ci & El & Ecs & Eci & B1 & B2 & B3 & B4 & B5 & B6). destruct (B6 eq_refl) as [B7 B8]. pose proof (read_length _ _ _ _ (l_length m) El) as Ll.
    assert (Lp : length (b_p b) = axes m) by (rewrite B4, map_length; exact Ll). assert (Lg : length (b_i b) = axes m) by (rewrite B5; unfold i_gain_set; rewrite !map_length; exact Lp).
    unfold base_reset, has_integrator. rewrite B2. split; [exact Lp|]. split; [exists ci; split; [exact B1|split; [rewrite (indices_length _ _ _ Eci); apply currents_axes, Ecs|exact (indices_within _ _ _ Eci)]]|]. cbn [base_set_int b_kind b_i b_int b_d b_last b_tau]. rewrite B2, repeat_length, B7, B8, map_length, repeat_length. repeat split; eauto.
Qed.
Lemma tuned_emf_live k e id f m : emf_tune (emf_new k) e id = Ok f -> motor_type id = Ok m -> k = (if str_in m induction_motors then EInd else if String.eqb m "EESM" then EEesm else EPlain) -> emf_live (axes m) (length (ce_names e)) f.
Proof.
  intros H Hm Hk. split; [exact (emf_tuned k e id f m H Hm Hk)|]. clear Hk. unfold emf_tune in H. apply bind_ok in H. destruct H as (g & Eg & H). unfold emf_tune_base in Eg. rewrite Hm in Eg. cbn [bind] in Eg. apply bind_ok in Eg. destruct Eg as (om & Eom & Eg). apply bind_ok in Eg. destruct Eg as (names & En & Eg). apply bind_ok in Eg. destruct Eg as (cur & Ec & Eg). apply bind_ok in Eg. destruct Eg as (l & El & Eg).
  apply bind_ok in Eg. destruct Eg as (psi & Ep & Eg). apply bind_ok in Eg. destruct Eg as (pr & _ & Eg). apply bind_ok in Eg. destruct Eg as (p & _ & Eg). apply bind_ok in Eg. destruct Eg as (us & _ & Eg). apply bind_ok in Eg. destruct Eg as (ui & _ & Eg). apply bind_ok in Eg. destruct Eg as (rg & _ & Eg). injection Eg as <-.
  pose proof (indices_within _ _ _ Ec) as W. pose proof (str_index_lt _ _ _ Eom) as Wo. cbn [emf_new ef_kind] in H. destruct k.
  - injection H as <-. split; [exact W|]. split; [exact Wo|exact I].
  - apply bind_ok in H. destruct H as (lm & _ & H). apply bind_ok in H. destruct H as (ld & _ & H). apply bind_ok in H. destruct H as (le & _ & H). apply bind_ok in H. destruct H as (rs & _ & H). apply bind_ok in H. destruct H as (re & _ & H). apply bind_ok in H. destruct H as (ie & Eie & H). apply bind_ok in H. destruct H as (isd & Eisd & H). injection H as <-.
    split; [exact W|]. split; [exact Wo|]. apply str_index_lt in Eie, Eisd. split; [exact Eie|]. repeat constructor; try assumption. apply Nat.le_lt_trans with ie; [apply Nat.le_0_l|exact Eie].
  - apply bind_ok in H. destruct H as (rr & _ & H). apply bind_ok in H. destruct H as (lm & _ & H). apply bind_ok in H. destruct H as (ls & _ & H). apply bind_ok in H. destruct H as (isq & Eisq & H). apply bind_ok in H. destruct H as (ab & Eab & H). injection H as <-.
    split; [exact W|]. split; [exact Wo|]. apply str_index_lt in Eisq, Eab. split; assumption.
Qed.
(** The motors that can be tuned. *)
Lemma currents_In m cs : dict_item m currents = Ok cs -> In m ["SeriesDc"; "ShuntDc"; "ExtExDc"; "PermExDc"; "PMSM"; "SynRM"; "SCIM"; "EESM"].
Proof. intros H. apply dict_item_In in H. cbn [In currents] in H. repeat (destruct H as [H|H]; [injection H as <- <-; cbn; tauto|]). destruct H. Qed.
Lemma abc_tuned_live e id m t : abc_tune abc_new e id = Ok t -> motor_type id = Ok m -> str_in m ac_motors = true -> (exists cs, dict_item m currents = Ok cs) -> abc_live (axes m) (length (ce_names e)) t /\ exists us, get_output_voltages m = Ok us /\ ab_len t = length us.
Proof.
  intros H Hm Hac (cs & Ecs). unfold abc_tune in H. rewrite Hm in H. cbn [bind] in H. apply bind_ok in H. destruct H as (ang & Ea & H). apply bind_ok in H. destruct H as (om & Eo & H). rewrite (id_parts _ _ Hm) in H. cbn [bind] in H. apply bind_ok in H. destruct H as (us & Eus & H). injection H as <-.
  split; [|exists us; auto]. split; [exact (str_index_lt _ _ _ Ea)|]. split; [exact (str_index_lt _ _ _ Eo)|]. cbn [ab_len]. apply currents_In in Ecs. cbn [In] in Ecs. repeat (destruct Ecs as [<-|Ecs]; [try discriminate Hac; cbn in Eus; injection Eus as <-; cbn; auto|]). destruct Ecs.
Qed.
Lemma tuned_live id name dec e a c0 c m : cc_new id name dec = Ok c0 -> cc_tune c0 e id a = Ok c -> motor_type id = Ok m -> env_proper e ->
  live (axes m) (length (ce_names e)) (cc_reset c) /\ (In (action_type id) [Ok "Finite"; Ok "Cont"] -> exists us, get_output_voltages m = Ok us /\ length us = if cc_req c then ab_len (cc_abc c) else axes m).
Proof.
  intros H0 H Hm He. unfold cc_new in H0. rewrite Hm in H0. cbn [bind] in H0. apply bind_ok in H0. destruct H0 as (kd & Ek & H0). injection H0 as <-.
  unfold cc_tune in H. apply bind_ok in H. destruct H as (at_ & Eat & H). rewrite Hm in H. cbn [bind] in H. apply bind_ok in H. destruct H as (ab & Eab & H). apply bind_ok in H. destruct H as (ef & Eef & H). apply bind_ok in H. destruct H as (b & Eb & H). apply bind_ok in H. destruct H as (w & Ew & H). apply bind_ok in H. destruct H as (cl & Ecl & H). apply bind_ok in H. destruct H as (us' & _ & H). apply bind_ok in H. destruct H as (loop & _ & H). injection H as <-.
  cbn [cc_base cc_emf cc_aw cc_clip cc_req cc_abc cc_dec] in *. rewrite Bool.orb_false_l in *.
  unfold windup_tune in Ew. rewrite Hm in Ew. cbn [bind windup_new aw_task] in Ew. apply bind_ok in Ew. destruct Ew as (cs & Ecs & Ew). apply bind_ok in Ew. destruct Ew as (ci & Eci & Ew). injection Ew as <-.
  destruct (clip_tuned _ _ _ _ _ Ecl Hm eq_refl He) as (us & ui & lim & Eus & Eui & Elim & Sh & _).
  assert (HA : str_in at_ ["Finite"; "Cont"] && str_in m ac_motors = true -> abc_live (axes m) (length (ce_names e)) ab /\ exists us, get_output_voltages m = Ok us /\ ab_len ab = length us). { intros E. rewrite E in Eab. apply andb_prop in E. destruct E as [_ E]. apply (abc_tuned_live e id m ab Eab Hm E). eauto. }
  split.
  - split; [exact (tuned_base_live _ _ _ _ _ _ _ Ek Eb Hm)|]. split; [intros _; exact (tuned_emf_live _ _ _ _ _ Eef Hm eq_refl)|]. split; [exact Sh|]. split; [split; [cbn; rewrite (indices_length _ _ _ Eci); apply currents_axes, Ecs|exact (indices_within _ _ _ Eci)]|]. intros E. apply HA. exact E.
  - intros Hat. change (exists us, get_output_voltages m = Ok us /\ length us = if str_in at_ ["Finite"; "Cont"] && str_in m ac_motors then ab_len ab else axes m). destruct (str_in at_ ["Finite"; "Cont"] && str_in m ac_motors) eqn:E; [destruct (HA eq_refl) as (_ & us2 & E1 & E2); exists us2; split; [exact E1|symmetry; exact E2]|].
    assert (Eac : str_in m ac_motors = false). { rewrite Eat in Hat. cbn [In] in Hat. destruct Hat as [Hat|[Hat|[]]]; injection Hat as <-; exact E. }
    pose proof (currents_In m cs Ecs) as Hin. cbn [In] in Hin. repeat (destruct Hin as [<-|Hin]; [try discriminate Eac; eexists; split; reflexivity|]). destruct Hin.
Qed.
(** Whatever the history of states and references, a current controller that could be tuned answers every call after a
    reset, with one voltage for each output of the converter. *)
Theorem tuned_current_control_never_raises :
  forall id name dec e a c0 c m ins s r, cc_new id name dec = Ok c0 -> cc_tune c0 e id a = Ok c -> motor_type id = Ok m -> env_proper e ->
  Forall (fun i => length (fst i) = length (ce_names e) /\ length (snd i) = axes m) ins -> length s = length (ce_names e) -> length r = axes m ->
  exists c' c2 out, cc_run (cc_reset c) ins = Ok c' /\ current_control c' s r = (c2, Ok out) /\
  (In (action_type id) [Ok "Finite"; Ok "Cont"] -> exists us, get_output_voltages m = Ok us /\ length out = length us).
Proof.
  intros id name dec e a c0 c m ins s r H0 H Hm He Hl Hs Hr. destruct (tuned_live id name dec e a c0 c m H0 H Hm He) as [Lv HU]. destruct (live_run _ _ ins _ Lv Hl) as (c' & E1 & L1 & R1 & A1). destruct (live_step _ _ c' s r L1 Hs Hr) as (c2 & out & E2 & _ & _ & _ & Lo).
  exists c', c2, out. split; [exact E1|]. split; [exact E2|]. intros Hat. destruct (HU Hat) as (us & U1 & U2). exists us. split; [exact U1|]. rewrite Lo, R1, A1, U2. reflexivity.
Qed.
Print Assumptions tuned_current_control_never_raises.
(** Without the reset a controller for two or more currents raises on the first call ([control_before_reset_raises]). *)
Example never_raises_example : exists c0 c, cc_new "Cont-CC-PMSM-v0" "PID" true = Ok c0 /\ cc_tune c0 pmsm_env "Cont-CC-PMSM-v0" 4 = Ok c /\ motor_type "Cont-CC-PMSM-v0" = Ok "PMSM" /\ axes "PMSM" = 2%nat /\ get_output_voltages "PMSM" = Ok ["u_a"; "u_b"; "u_c"].
Proof. do 2 eexists. split; [reflexivity|]. split; [reflexivity|]. split; [reflexivity|]. split; reflexivity. Qed.
