(** Lemmas about the controller stages. *)
From Verif Require Import PyBaseFacts PyDictFacts Transform_Model Transform_Proofs Conv_Model Wrap_Model Ctl_Model Ctl_Model2 Ctl_Spec.
Local Open Scope string_scope. Local Open Scope list_scope. Local Open Scope R_scope.

(** ** Arrays *)
Lemma map2_nth f (a b : list R) k : length a = length b -> (k < length a)%nat -> nth k (map2 f a b) 0 = f (nth k a 0) (nth k b 0).
Proof. revert b k. induction a as [|x a IH]; intros [|y b] k Hl Hk; cbn in *; try lia. destruct k; [reflexivity|]. apply IH; lia. Qed.
Lemma map2_len {A B C} (f : A -> B -> C) a b : length a = length b -> length (map2 f a b) = length a.
Proof. intros H. rewrite map2_length. lia. Qed.
Lemma np_bin_eq f a b : length a = length b -> np_bin f a b = Ok (map2 f a b).
Proof. intros H. unfold np_bin. rewrite (proj2 (Nat.eqb_eq _ _) H). reflexivity. Qed.
Lemma np_bin_inv f a b c n : np_bin f a b = Ok c -> length a = n -> length b = n ->
  length c = n /\ forall k, (k < n)%nat -> comp k c = f (comp k a) (comp k b).
Proof. intros H Ha Hb. rewrite np_bin_eq in H by congruence. injection H as <-. rewrite map2_len by congruence. split; [exact Ha|]. intros k Hk. apply map2_nth; congruence. Qed.
Lemma np_bin_ok f a b n : length a = n -> length b = n -> exists c, np_bin f a b = Ok c /\ length c = n /\ forall k, (k < n)%nat -> comp k c = f (comp k a) (comp k b).
Proof. intros Ha Hb. exists (map2 f a b). rewrite np_bin_eq by congruence. split; [reflexivity|]. apply (np_bin_inv f a b); [apply np_bin_eq; congruence|exact Ha|exact Hb]. Qed.
Lemma np_iadd_inv a b c n : np_iadd a b = Ok c -> length a = n -> length b = n ->
  length c = n /\ forall k, (k < n)%nat -> comp k c = comp k a + comp k b.
Proof. intros H Ha Hb. unfold np_iadd in H. rewrite (proj2 (Nat.eqb_eq _ _)) in H by congruence. injection H as <-. rewrite map2_len by congruence. split; [exact Ha|]. intros k Hk. apply map2_nth; congruence. Qed.
Lemma comp_map f l k : (k < length l)%nat -> comp k (map f l) = f (comp k l).
Proof. intros H. unfold comp. rewrite (nth_indep _ 0 (f 0)) by (rewrite map_length; exact H). apply map_nth. Qed.
Lemma select_length {A} idx (l r : list A) : select idx l = Ok r -> length r = length idx.
Proof. revert r. induction idx as [|i idx IH]; cbn; intros r H; [injection H as <-; reflexivity|]. destruct (nth_error l i); [|discriminate]. destruct (select idx l) as [r'|]; [|discriminate]. injection H as <-. cbn. f_equal. auto. Qed.
Lemma select_comp idx l r k : select idx l = Ok r -> (k < length idx)%nat -> comp k r = comp (nth k idx O) l.
Proof.
  revert r k. induction idx as [|i idx IH]; cbn; intros r k H Hk; [lia|]. destruct (nth_error l i) as [a|] eqn:Ei; [|discriminate]. destruct (select idx l) as [r'|] eqn:Er; [|discriminate]. injection H as <-.
  destruct k; [|change (comp k r' = comp (nth k idx O) l); apply IH; [reflexivity|lia]]. unfold comp. cbn. symmetry. apply nth_error_nth. exact Ei.
Qed.
Lemma bind_ok {A B} (x : res A) (f : A -> res B) v : bind x f = Ok v -> exists a, x = Ok a /\ f a = Ok v.
Proof. destruct x; cbn; intros H; [eauto|discriminate]. Qed.

(** ** Clipping stages *)
Lemma np_clips_inv x lo hi v n : np_clips x lo hi = Ok v -> length x = n -> length lo = n -> length hi = n ->
  length v = n /\ forall k, (k < n)%nat -> comp k v = np_clip (comp k x) (comp k lo) (comp k hi).
Proof.
  intros H Hx Hl Hh. unfold np_clips in H. apply bind_ok in H. destruct H as (y & Hy & H). destruct (np_bin_inv _ _ _ _ n Hy Hx Hl) as [L1 C1]. destruct (np_bin_inv _ _ _ _ n H L1 Hh) as [L2 C2].
  split; [exact L2|]. intros k Hk. rewrite C2, C1 by exact Hk. reflexivity.
Qed.
Lemma np_clips_ok x lo hi n : length x = n -> length lo = n -> length hi = n -> exists v, np_clips x lo hi = Ok v.
Proof. intros Hx Hl Hh. unfold np_clips. destruct (np_bin_ok Rmax x lo n Hx Hl) as (y & E & Ly & _). rewrite E. cbn [bind]. destruct (np_bin_ok Rmin y hi n Ly Hh) as (z & Ez & _). eauto. Qed.
Lemma rsum_scale s l : rsum (map (fun x => s * x) l) = s * rsum l.
Proof. induction l as [|x l IH]; cbn; [lra|]. rewrite IH. lra. Qed.
Lemma len2_val ref lim : length ref = length lim -> rsum (map (fun x => x * x) (map2 Rdiv ref lim)) = rsum (map2 (fun x l => (x / l) * (x / l)) ref lim).
Proof. revert lim. induction ref as [|x ref IH]; intros [|l lim] H; cbn in *; try discriminate; [reflexivity|]. rewrite IH by lia. reflexivity. Qed.
Definition len2 (lim v : list R) : R := rsum (map2 (fun x l => (x / l) * (x / l)) v lim).
Lemma len2_nonneg lim v : 0 <= len2 lim v.
Proof. unfold len2. revert lim. induction v as [|x v IH]; intros [|l lim]; cbn; try lra. specialize (IH lim). pose proof (Rle_0_sqr (x / l)) as Hq. unfold Rsqr in Hq. lra. Qed.
Lemma len2_scale s lim v : len2 lim (map (fun x => s * x) v) = s * s * len2 lim v.
Proof. unfold len2. revert lim. induction v as [|x v IH]; intros [|l lim]; cbn; try lra. rewrite IH. unfold Rdiv. ring. Qed.
Lemma rel_length_scale s lim v : 0 <= s -> rel_length lim (map (fun x => s * x) v) = s * rel_length lim v.
Proof. intros Hs. change (sqrt (len2 lim (map (fun x => s * x) v)) = s * sqrt (len2 lim v)). rewrite len2_scale. rewrite sqrt_mult by (try apply len2_nonneg; nra). rewrite sqrt_square by exact Hs. reflexivity. Qed.
Lemma rel_length_sq lim v : rel_length lim v * rel_length lim v = len2 lim v.
Proof. apply sqrt_sqrt. apply len2_nonneg. Qed.
Lemma rel_length_nonneg lim v : 0 <= rel_length lim v.
Proof. apply sqrt_pos. Qed.
(** What the squared clipping computes: a factor. *)
Definition sq_factor (lim : list R) (m : R) (ref : list R) : R := if rlt (len2 lim ref) ((1 - m) * (1 - m)) then 1 else (1 - m) / len2 lim ref.
Lemma sq_clip_val lim m ref : length ref = length lim -> sq_clip lim m ref = Ok (map (fun x => sq_factor lim m ref * x) ref).
Proof.
  intros H. unfold sq_clip. rewrite np_bin_eq by exact H. cbn [bind]. rewrite len2_val by exact H. fold (len2 lim ref). unfold sq_factor. f_equal. destruct (rlt (len2 lim ref) ((1 - m) * (1 - m))).
  - rewrite <- (map_id ref) at 1. apply map_ext. intros x. lra.
  - apply map_ext. intros x. unfold Rdiv. ring.
Qed.
Lemma rlt_len lim v r : 0 < r -> rlt (len2 lim v) (r * r) = rlt (rel_length lim v) r.
Proof.
  intros Hr. pose proof (rel_length_nonneg lim v) as H0. rewrite <- rel_length_sq. destruct (rltP (rel_length lim v) r) as [H|H]; [apply rlt_true|apply rlt_false]; nra.
Qed.
Lemma sq_clip_length lim m ref : 0 <= m < 1 -> length ref = length lim ->
  exists v, sq_clip lim m ref = Ok v /\ length v = length ref /\
    rel_length lim v = (if rlt (rel_length lim ref) (1 - m) then rel_length lim ref else (1 - m) / rel_length lim ref) /\
    exists s, 0 < s /\ forall k, (k < length ref)%nat -> comp k v = s * comp k ref.
Proof.
  intros Hm Hl. eexists. split; [apply sq_clip_val; exact Hl|]. rewrite map_length. split; [reflexivity|]. unfold sq_factor. rewrite rlt_len by lra. pose proof (rel_length_nonneg lim ref) as H0.
  destruct (rltP (rel_length lim ref) (1 - m)) as [H|H].
  - split; [rewrite rel_length_scale by lra; lra|]. exists 1. split; [lra|]. intros k Hk. rewrite comp_map by exact Hk. reflexivity.
  - assert (H1 : 0 < rel_length lim ref) by lra. assert (H2 : 0 < len2 lim ref) by (rewrite <- rel_length_sq; nra).
    assert (H3 : 0 < (1 - m) / len2 lim ref) by (apply Rdiv_lt_0_compat; lra). split.
    + rewrite rel_length_scale by lra. rewrite <- rel_length_sq. field. lra.
    + exists ((1 - m) / len2 lim ref). split; [exact H3|]. intros k Hk. rewrite comp_map by exact Hk. reflexivity.
Qed.
Lemma comp_le_rel lim v k : length v = length lim -> (k < length v)%nat -> comp k lim <> 0 -> Rabs (comp k v) <= rel_length lim v * Rabs (comp k lim).
Proof.
  intros Hl Hk Hz. assert (H : (comp k v / comp k lim) * (comp k v / comp k lim) <= len2 lim v).
  { unfold len2, comp. clear Hz. revert lim k Hl Hk. induction v as [|x v IH]; intros [|l lim] k Hl Hk; cbn in *; try lia. pose proof (len2_nonneg lim v) as Hp. unfold len2 in Hp.
    destruct k; [lra|]. specialize (IH lim k ltac:(lia) ltac:(lia)). pose proof (Rle_0_sqr (x / l)) as Hq. unfold Rsqr in Hq. lra. }
  rewrite <- rel_length_sq in H. apply Rsqr_le_abs_0 in H. rewrite (Rabs_pos_eq (rel_length lim v)) in H by apply rel_length_nonneg.
  unfold Rdiv in H. rewrite Rabs_mult, Rabs_inv in H. pose proof (Rabs_pos_lt _ Hz) as Hp.
  apply (Rmult_le_compat_r (Rabs (comp k lim))) in H; [|lra]. rewrite Rmult_assoc, Rinv_l, Rmult_1_r in H by lra. exact H.
Qed.
Lemma clip_call_inv c ref c' v : clip_call c ref = (c', Ok v) -> clipped (cs_clip c) ref = Ok v /\ cs_clip c' = cs_clip c /\ cs_task c' = cs_task c /\ np_bin Rminus ref v = Ok (cs_diff c').
Proof.
  unfold clip_call. destruct (clipped (cs_clip c) ref) as [y|]; [|intros H; discriminate]. destruct (np_bin Rminus ref y) as [d|] eqn:E; intros H; [|discriminate].
  injection H as <- <-. cbn. auto.
Qed.
Lemma clipped_length cl ref v n : clip_shape n cl -> length ref = n -> clipped cl ref = Ok v -> length v = n.
Proof.
  destruct cl as [lo hi|lim m|lim lo hi m]; cbn [clip_shape clipped]; intros Hs Hr H.
  - destruct Hs. apply (np_clips_inv _ _ _ _ n) in H; tauto.
  - rewrite sq_clip_val in H by congruence. injection H as <-. rewrite map_length. exact Hr.
  - destruct Hs as (-> & Hl & Hlo & Hhi). apply bind_ok in H. destruct H as (rs & E1 & H). apply bind_ok in H. destruct H as (s & E2 & H). apply bind_ok in H. destruct H as (ra & E3 & H). apply bind_ok in H. destruct H as (a & E4 & H).
    injection H as <-. apply select_length in E1, E3. rewrite sq_clip_val in E2 by (rewrite E1, Hl; reflexivity). injection E2 as <-. destruct (np_clips_inv _ _ _ _ 1%nat E4 E3 Hlo Hhi) as [L _].
    rewrite app_length, map_length, E1, L. reflexivity.
Qed.

(** ** Current controller *)
Definition base_static (b b' : base) : Prop :=
  b_kind b' = b_kind b /\ b_task b' = b_task b /\ b_p b' = b_p b /\ b_i b' = b_i b /\ b_int b' = b_int b /\ b_tau b' = b_tau b /\ b_idx b' = b_idx b /\ b_d b' = b_d b.
Lemma base_call_static b s r b' o : base_call b s r = (b', o) -> base_static b b'.
Proof.
  unfold base_call. destruct (b_kind b) eqn:K; intros H; try (injection H as <- <-; repeat split; assumption).
  destruct (bind _ _) as [x|] in H; injection H as <- <-; repeat split; assumption.
Qed.
Lemma pi_control_inv b s r u n : base_shape n b -> length r = n -> pi_control b s r = Ok u ->
  exists x, base_states b s = Ok x /\ length x = n /\ length u = n /\ forall k, (k < n)%nat -> comp k u = comp k (b_p b) * (comp k r - comp k x) + comp k (b_i b) * comp k (b_int b).
Proof.
  intros (Hp & Hi & Hint & (idx & Eidx & Hidx) & _) Hr H. unfold pi_control in H. apply bind_ok in H. destruct H as (x & Ex & H). apply bind_ok in H. destruct H as (pp & Ep & H). apply bind_ok in H. destruct H as (ip & Ei & H).
  assert (Lx : length x = n). { unfold base_states in Ex. rewrite Eidx in Ex. apply select_length in Ex. congruence. }
  unfold p_part in Ep. apply bind_ok in Ep. destruct Ep as (er & Eer & Ep). destruct (np_bin_inv _ _ _ _ n Eer Hr Lx) as [L1 C1]. destruct (np_bin_inv _ _ _ _ n Ep Hp L1) as [L2 C2].
  destruct (np_bin_inv _ _ _ _ n Ei Hi Hint) as [L3 C3]. destruct (np_bin_inv _ _ _ _ n H L2 L3) as [L4 C4].
  exists x. repeat split; try assumption. intros k Hk. rewrite C4, C2, C1, C3 by exact Hk. reflexivity.
Qed.
Lemma base_call_shape n b s r b' u : base_shape n b -> length r = n -> base_call b s r = (b', Ok u) -> base_shape n b' /\ length u = n.
Proof.
  intros Hs Hr H. pose proof (base_call_static _ _ _ _ _ H) as St. destruct St as (K & _ & P & I & Z & T & X & D). pose proof Hs as (Hp & Hi & Hint & (idx & Eidx & Hidx) & Hk).
  unfold base_call in H. destruct (b_kind b) eqn:Kb; try contradiction.
  - injection H as <- H. split; [exact Hs|]. destruct (pi_control_inv _ _ _ _ n Hs Hr H) as (x & _ & _ & L & _). exact L.
  - destruct (bind _ _) as [x|] eqn:E in H; [|discriminate]. injection H as <- H. apply bind_ok in E. destruct E as (u1 & E1 & E). apply bind_ok in E. destruct E as (st & E2 & E). apply bind_ok in E. destruct E as (er & E3 & E). apply bind_ok in E. destruct E as (dd & E4 & E).
    injection E as <-. cbn [fst snd] in H. destruct (pi_control_inv _ _ _ _ n Hs Hr E1) as (x & Ex & Lx & L & _). rewrite E2 in Ex. injection Ex as <-. destruct (np_bin_inv _ _ _ _ n E3 Hr Lx) as [L3 _].
    unfold d_part in E4. apply bind_ok in E4. destruct E4 as (de & E4 & E5). apply bind_ok in E5. destruct E5 as (xx & E5 & E6). destruct (b_tau b); [|discriminate]. injection E6 as <-. destruct Hk as [Hd Hl].
    destruct (np_bin_inv _ _ _ _ n E4 L3 Hl) as [L4 _]. destruct (np_bin_inv _ _ _ _ n E5 Hd L4) as [L5 _]. assert (L6 : length (map (fun v => v / r0) xx) = n) by (rewrite map_length; exact L5).
    destruct (np_bin_inv _ _ _ _ n H L L6) as [L7 _]. split; [|exact L7]. cbn. unfold base_shape. cbn. rewrite Kb. repeat split; eauto.
Qed.
Lemma emf_plain_length n f psi s r y : length (ef_l f) = n -> length (ef_cur f) = n -> length psi = n -> length r = n -> emf_plain f psi s r = Ok y -> length y = n.
Proof.
  intros H1 H2 H3 Hr H. unfold emf_plain in H. apply bind_ok in H. destruct H as (cur & E1 & H). apply bind_ok in H. destruct H as (w & E2 & H). apply bind_ok in H. destruct H as (x & E3 & H). apply bind_ok in H. destruct H as (z & E4 & H).
  apply select_length in E1. rewrite H2 in E1. destruct (np_bin_inv _ _ _ _ n E3 H1 E1) as [L1 _]. destruct (np_bin_inv _ _ _ _ n E4 L1 H3) as [L2 _].
  assert (L3 : length (map (fun v => v * (w * ef_p f)) z) = n) by (rewrite map_length; exact L2). destruct (np_bin_inv _ _ _ _ n H Hr L3) as [L4 _]. exact L4.
Qed.
Lemma emf_call_length n f s r y : emf_shape n f -> length r = n -> emf_call f s r = Ok y -> length y = n.
Proof.
  intros (H1 & H2 & H3) Hr H. unfold emf_call in H. destruct (ef_kind f).
  - apply (emf_plain_length n) in H; assumption.
  - destruct H3 as (-> & H4 & H5 & H6). apply bind_ok in H. destruct H as (ie & E0 & H). apply bind_ok in H. destruct H as (act & E1 & H). apply bind_ok in H. destruct H as (cur & E2 & H). apply bind_ok in H. destruct H as (x & E3 & H). apply bind_ok in H. destruct H as (a2 & E4 & H).
    apply bind_ok in H. destruct H as (pm & E5 & H). apply bind_ok in H. destruct H as (z & E6 & H).
    apply (emf_plain_length 3) in E1; try assumption; [|reflexivity]. apply select_length in E2, E5. rewrite H6 in E2. destruct (np_bin_inv _ _ _ _ 3%nat E3 H4 E2) as [L1 _]. destruct (np_bin_inv _ _ _ _ 3%nat E4 E1 L1) as [L2 _].
    destruct (np_bin_inv _ _ _ _ 3%nat E6 H5 E5) as [L3 _]. destruct (np_bin_inv _ _ _ _ 3%nat H L2 L3) as [L4 _]. exact L4.
  - rewrite H3 in *. apply bind_ok in H. destruct H as (w & E0 & H). apply bind_ok in H. destruct H as (iq & E1 & H). apply bind_ok in H. destruct H as (ab & E2 & H). apply bind_ok in H. destruct H as (cur & E3 & H). apply bind_ok in H. destruct H as (x & E4 & H). apply bind_ok in H. destruct H as (z & E5 & H).
    apply select_length in E3. rewrite H2 in E3. match type of E4 with np_bin _ ?m _ = _ => assert (L0 : length m = 2%nat) by (rewrite map_length; exact H1) end. destruct (np_bin_inv _ _ _ _ 2%nat E4 L0 E3) as [L1 _]. destruct (np_bin_inv _ _ _ _ 2%nat E5 Hr L1) as [L2 _].
    match type of H with np_bin _ _ ?m = _ => assert (L3 : length m = 2%nat) by reflexivity end. destruct (np_bin_inv _ _ _ _ 2%nat H L2 L3) as [L4 _]. exact L4.
Qed.
Lemma current_control_inv c s r c' out : current_control c s r = (c', Ok out) ->
  exists b u y cl v, base_call (cc_base c) s r = (b, Ok u) /\ (if cc_dec c then emf_call (cc_emf c) s u else Ok u) = Ok y /\ clip_call (cc_clip c) y = (cl, Ok v) /\
    (if cc_req c then abc_call (cc_abc c) s y else Ok y) = Ok out /\
    (if has_integrator b then exists d z, windup_call (cc_aw c) s r (cs_diff cl) = Ok d /\ np_iadd (b_int b) d = Ok z /\ c' = cc_upd c (base_set_int b z) cl v
     else c' = cc_upd c b cl v).
Proof.
  unfold current_control. destruct (base_call (cc_base c) s r) as [b u0] eqn:E0. destruct (bind u0 _) as [y|] eqn:E1; [|intros H; discriminate]. apply bind_ok in E1. destruct E1 as (u & -> & E1).
  destruct (clip_call (cc_clip c) y) as [cl v0] eqn:E2. destruct v0 as [v|]; [|intros H; discriminate]. destruct (if cc_req c then _ else _) as [o|] eqn:E3; [|intros H; discriminate].
  destruct (has_integrator b) eqn:E4.
  - destruct (bind _ _) as [z|] eqn:E5; [|intros H; discriminate]. apply bind_ok in E5. destruct E5 as (d & E5 & E6). intros H. injection H as <- <-.
    exists b, u, y, cl, v. rewrite E4. repeat split; try assumption. exists d, z. auto.
  - intros H. injection H as <- <-. exists b, u, y, cl, v. rewrite E4. repeat split; assumption.
Qed.
Lemma shaped_integrator n b : base_shape n b -> has_integrator b = true.
Proof. intros (_ & _ & _ & _ & H). unfold has_integrator. destruct (b_kind b); try contradiction; reflexivity. Qed.
(** One control step. *)
Lemma current_step n c s r c' out : shaped n c -> length r = n -> current_control c s r = (c', Ok out) ->
  shaped n c' /\ exists y v x, command c s r = Ok y /\ clipped (cs_clip (cc_clip c)) y = Ok v /\ length y = n /\ length v = n /\ select (aw_idx (cc_aw c)) s = Ok x /\
    cc_volt c' = v /\ (if cc_req c then abc_call (cc_abc c) s y else Ok y) = Ok out /\
    (forall k, (k < n)%nat -> comp k (b_int (cc_base c')) = comp k (b_int (cc_base c)) + (if req (comp k y) (comp k v) then aw_tau (cc_aw c) * (comp k r - comp k x) else 0)) /\
    b_kind (cc_base c') = b_kind (cc_base c) /\ b_p (cc_base c') = b_p (cc_base c) /\ b_i (cc_base c') = b_i (cc_base c) /\ b_idx (cc_base c') = b_idx (cc_base c) /\
    cc_aw c' = cc_aw c /\ cc_dec c' = cc_dec c /\ cc_emf c' = cc_emf c /\ cs_clip (cc_clip c') = cs_clip (cc_clip c) /\ cc_req c' = cc_req c /\ cc_abc c' = cc_abc c.
Proof.
  intros (Hb & He & Hc & Ha) Hr H. apply current_control_inv in H. destruct H as (b & u & y & cl & v & E1 & E2 & E3 & E4 & E5). destruct (base_call_shape n _ _ _ _ _ Hb Hr E1) as [Hb' Lu].
  assert (Ly : length y = n). { destruct (cc_dec c); [apply (emf_call_length n) in E2; auto|congruence]. }
  pose proof (base_call_static _ _ _ _ _ E1) as (K & _ & P & I & Z & T & X & D). destruct (clip_call_inv _ _ _ _ E3) as (C1 & C2 & C3 & C4). pose proof (clipped_length _ _ _ n Hc Ly C1) as Lv.
  rewrite (shaped_integrator n b Hb') in E5. destruct E5 as (d & z & W & A & ->). unfold windup_call in W. apply bind_ok in W. destruct W as (x & Ex & W). apply bind_ok in W. destruct W as (er & Eer & W).
  pose proof (select_length _ _ _ Ex) as Lx. rewrite Ha in Lx. destruct (np_bin_inv _ _ _ _ n Eer Hr Lx) as [L1 D1]. destruct (np_bin_inv _ _ _ _ n C4 Ly Lv) as [L2 D2].
  assert (L3 : length (map (fun q => aw_tau (cc_aw c) * q) er) = n) by (rewrite map_length; exact L1). assert (L4 : length (map (fun q => if req q 0 then 1 else 0) (cs_diff cl)) = n) by (rewrite map_length; exact L2).
  destruct (np_bin_inv _ _ _ _ n W L3 L4) as [L5 D5]. assert (Lz : length (b_int b) = n) by (rewrite Z; apply Hb). destruct (np_iadd_inv _ _ _ n A Lz L5) as [L6 D6].
  split.
  - split; [|split; [exact He|split; [cbn; rewrite C2; exact Hc|exact Ha]]]. destruct Hb' as (B1 & B2 & B3 & B4 & B5). exact (conj B1 (conj B2 (conj L6 (conj B4 B5)))).
  - exists y, v, x. split; [unfold command; rewrite E1; exact E2|]. cbn [cc_upd cc_base cc_volt cc_aw cc_dec cc_emf cc_clip cc_req cc_abc base_set_int b_int b_kind b_p b_i b_idx]. rewrite K, P, I, X, C2. repeat split; try assumption.
    intros k Hk. rewrite D6, D5 by exact Hk. rewrite (comp_map (fun q => aw_tau (cc_aw c) * q)) by congruence. rewrite (comp_map (fun q => if req q 0 then 1 else 0)) by congruence. rewrite D1, D2 by exact Hk.
    rewrite Z. destruct (reqP (comp k y - comp k v) 0) as [H1|H1], (reqP (comp k y) (comp k v)) as [H2|H2]; try lra.
Qed.
