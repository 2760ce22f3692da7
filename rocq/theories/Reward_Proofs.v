(** Lemmas about the reward function. *)
From Verif Require Import PyDictFacts Utils_Model Utils_Spec Utils_Proofs Reward_Model Reward_Spec.

Lemma np_pow_range x n : 0 <= x <= 1 -> 0 < n -> 0 <= np_pow x n <= 1.
Proof.
  intros [H0 H1] Hn. unfold np_pow. destruct (reqP x 0) as [->|Hx].
  - destruct (reqP n 0); lra.
  - assert (0 < x) by lra. split; [left; apply exp_pos|]. unfold Rpower.
    assert (ln x <= 0) as Hl.
    { destruct (Req_dec x 1) as [->|]; [rewrite ln_1; lra|].
      left. rewrite <- ln_1. apply ln_increasing; lra. }
    assert (n * ln x <= 0) as Hle.
    { replace 0 with (n * 0) by ring. apply Rmult_le_compat_l; lra. }
    destruct (Req_dec (n * ln x) 0) as [->|Hne]; [rewrite exp_0; lra|].
    left. rewrite <- exp_0. apply exp_increasing. lra.
Qed.
Lemma np_pow_zero x n : 0 <= x -> 0 < n -> (np_pow x n = 0 <-> x = 0).
Proof.
  intros H0 Hn. unfold np_pow. destruct (reqP x 0) as [->|Hx].
  - destruct (reqP n 0); [lra|tauto].
  - split; [|tauto]. intros E. exfalso. pose proof (exp_pos (n * ln x)). unfold Rpower in E. lra.
Qed.

Lemma weighted_errors_spec N s : admissible N s ->
  exists e, weighted_errors (si_w s) (si_n s) (si_len s) (si_state s) (si_ref s) = Ok e /\
    0 <= e <= rsum (si_w s) /\ (e = 0 <-> no_weighted_error s).
Proof.
  destruct s as [w n len st rf]. unfold admissible, no_weighted_error; simpl.
  revert w n len st rf; induction N as [|N IH]; intros w n len st rf (Lw & Ln & Ll & Ls & Lr & Hw & Hn & Hd).
  - destruct w, n, len, st, rf; try discriminate. simpl. exists 0. split; auto. split; [lra|].
    split; auto. intros _ [|i]; discriminate.
  - destruct w as [|w0 w], n as [|n0 n], len as [|l0 len], st as [|x0 st], rf as [|r0 rf]; try discriminate.
    simpl in *.
    destruct (IH w n len st rf) as (e & E & [Ge Le] & Hz).
    { do 5 (split; [lia|]). split; [auto|]. split; [auto|].
      intros i l x r H1 H2 H3. exact (Hd (S i) l x r H1 H2 H3). }
    rewrite E. cbn [bind]. eexists; split; [reflexivity|].
    destruct (Hd O l0 x0 r0 eq_refl eq_refl eq_refl) as [Hl0 Hdist].
    assert (0 <= w0) as Hw0 by auto. assert (0 < n0) as Hn0 by auto.
    assert (0 <= Rabs (x0 - r0) / l0 <= 1) as Hq.
    { pose proof (Rabs_pos (x0 - r0)). split.
      - apply Rmult_le_pos; auto. left. now apply Rinv_0_lt_compat.
      - apply Rmult_le_reg_r with l0; auto. unfold Rdiv. rewrite Rmult_assoc, Rinv_l by lra. lra. }
    pose proof (np_pow_range _ n0 Hq Hn0) as [Hp0 Hp1].
    pose proof (np_pow_zero _ n0 (proj1 Hq) Hn0) as Hpz.
    set (p := np_pow (Rabs (x0 - r0) / l0) n0) in *.
    assert (0 <= w0 * p <= w0) as [Ht0 Ht1].
    { split; [apply Rmult_le_pos; lra|]. rewrite <- (Rmult_1_r w0) at 2. apply Rmult_le_compat_l; lra. }
    split; [lra|]. split.
    + intros Hs. assert (e = 0) as He by lra. assert (w0 * p = 0) as Hwp by lra.
      intros [|i] w1 x r H1 H2 H3; simpl in *.
      * injection H1 as <-. injection H2 as <-. injection H3 as <-.
        apply Rmult_integral in Hwp as [->|Hp]; [auto|]. right.
        apply Hpz in Hp. assert (Rabs (x0 - r0) = 0) as Ha.
        { apply Rmult_eq_reg_r with (/ l0); [|apply Rinv_neq_0_compat; lra]. unfold Rdiv in Hp. lra. }
        destruct (Req_dec (x0 - r0) 0); [lra|]. exfalso. eapply Rabs_no_R0; eauto.
      * exact (proj1 Hz He i w1 x r H1 H2 H3).
    + intros Hno. assert (e = 0) as -> by (apply Hz; intros i w1 x r H1 H2 H3; exact (Hno (S i) w1 x r H1 H2 H3)).
      destruct (Hno O w0 x0 r0 eq_refl eq_refl eq_refl) as [-> | ->]; [ring|].
      assert (p = 0) as ->; [|ring]. apply Hpz. rewrite Rminus_diag_eq, Rabs_R0 by auto. field. lra.
Qed.

Lemma reward_value f s b v N state_degree :
  admissible N s -> configured f s b v ->
  exists e, 0 <= e <= rsum (si_w s) /\ (e = 0 <-> no_weighted_error s) /\
    wse_reward f (si_state s) (si_ref s) state_degree = Ok ((1 - state_degree) * (- e + b) + state_degree * v).
Proof.
  intros Ha (C1 & C2 & C3 & C4 & C5).
  destruct (weighted_errors_spec N s Ha) as (e & E & Hb & Hz). exists e. split; [auto|split; [auto|]].
  unfold wse_reward. rewrite C1, C2, C3, C4, C5, E. reflexivity.
Qed.

(** ** set_modules *)
Lemma set_modules_inv f e f' : wse_set_modules f e = Ok f' ->
  exists n w b v,
    set_state_array (wse_n f) (we_names e) = Ok n /\
    set_state_array (match wse_weights f with None => InDict (default_weights e) | Some i => i end) (we_names e) = Ok w /\
    b = match wse_bias f with BiasPositive => if wse_normed f then 1 else rsum w | BiasNum b => b end /\
    wse_n f' = InArray n /\
    wse_weights f' = Some (InArray (if wse_normed f then map (fun x => x / rsum w) w else w)) /\
    wse_length f' = map2 Rminus (we_high e) (we_low e) /\
    wse_normed f' = wse_normed f /\ wse_gamma f' = wse_gamma f /\
    wse_bias f' = BiasNum b /\ wse_violation f' = Some v /\
    wse_range f' = (if wse_normed f then (-1 + b, b) else (- rsum w + b, b)) /\
    match wse_violation f with
    | Some v0 => v = v0
    | None => default_violation (fst (wse_range f')) (wse_gamma f) = Ok v end.
Proof.
  unfold wse_set_modules. intros H.
  destruct (set_state_array (wse_n f) (we_names e)) as [n|] eqn:En; cbn [bind] in H; [|discriminate].
  destruct (set_state_array (match wse_weights f with None => _ | Some i => i end) (we_names e)) as [w|] eqn:Ew;
    cbn [bind] in H; [|discriminate].
  destruct (wse_violation f) as [v0|]; cbn [bind] in H.
  - injection H as <-. do 4 eexists. repeat split; eauto.
  - destruct (default_violation _ _) as [v|] eqn:Ev in H; cbn [bind] in H; [|discriminate].
    injection H as <-. do 4 eexists. repeat split; eauto.
Qed.

Lemma rsum_scale l k : rsum (map (fun x => x / k) l) = rsum l / k.
Proof. induction l as [|x l IH]; simpl; [|rewrite IH]; unfold Rdiv; ring. Qed.

Lemma range_is_sum f e f' n w b :
  wse_set_modules f e = Ok f' -> wse_n f' = InArray n -> wse_weights f' = Some (InArray w) ->
  wse_bias f' = BiasNum b ->
  (wse_normed f = true -> exists w0, rsum w0 <> 0 /\
     set_state_array (match wse_weights f with None => InDict (default_weights e) | Some i => i end) (we_names e) = Ok w0) ->
  wse_range f' = (- rsum w + b, b).
Proof.
  intros H Hn Hw Hb Hnz.
  apply set_modules_inv in H as (n' & w' & b' & v & _ & E2 & _ & _ & Hw' & _ & _ & _ & Hb' & _ & Hr & _).
  rewrite Hb in Hb'. injection Hb' as <-. rewrite Hr. rewrite Hw in Hw'. injection Hw' as ->.
  destruct (wse_normed f); auto.
  destruct (Hnz eq_refl) as (w0 & Hw0 & Ew0). rewrite E2 in Ew0. injection Ew0 as ->.
  rewrite rsum_scale. f_equal. replace (rsum w0 / rsum w0) with 1 by (field; auto). ring.
Qed.

(** default violation reward *)
Lemma default_violation_bound r0 g v :
  0 <= g < 1 -> default_violation r0 g = Ok v ->
  v <= r0 /\ v <= 0 /\ (r0 <= 0 -> v = r0 / (1 - g)) /\ (0 < r0 -> v = 0).
Proof.
  intros Hg H. unfold default_violation in H. destruct (reqP (1 - g) 0); [lra|]. injection H as <-.
  unfold py_min0. assert (0 < / (1 - g)) as Hi by (apply Rinv_0_lt_compat; lra).
  assert (1 <= / (1 - g)) as Hi1.
  { rewrite <- Rinv_1 at 1. apply Rinv_le_contravar; lra. }
  destruct (Rle_lt_dec r0 0) as [Hr|Hr].
  - assert (r0 / (1 - g) <= r0) as Hle.
    { unfold Rdiv. rewrite <- (Rmult_1_r r0) at 2.
      apply Rmult_le_compat_neg_l; auto. }
    destruct (rltP 0 (r0 / (1 - g))); [exfalso; lra|]. repeat split; lra.
  - assert (0 < r0 / (1 - g)) by (apply Rmult_lt_0_compat; auto).
    destruct (rltP 0 (r0 / (1 - g))); [|lra]. repeat split; lra.
Qed.

(** default weights *)
Lemma value_for_fromkeys name ks c :
  (forall k, In k ks -> lower k = k) ->
  value_for name (dict_fromkeys ks c) = if str_in name ks then c else 0.
Proof.
  intros Hlow. rewrite value_for_get.
  assert (forall d : dict R, (forall k, In k (dict_keys d) -> lower k = k) -> lowered d = d) as Hl.
  { unfold lowered. induction d as [|[k v] d IH]; simpl; intros H; auto.
    rewrite H by auto. rewrite IH; auto. }
  rewrite Hl.
  2:{ intros k Hk. apply Hlow. unfold dict_fromkeys in Hk.
      rewrite in_dict_of_pairs, map_map in Hk. simpl in Hk. now rewrite map_id in Hk. }
  assert (forall d : dict R, NoDup (dict_keys d) -> forall k, dict_get k (dict_of_pairs d) = dict_get k d) as Hd.
  { intros d Hnd k. unfold dict_of_pairs. rewrite dict_get_update by auto. destruct (dict_get k d); reflexivity. }
  rewrite Hd by apply dict_of_pairs_nodup. rewrite dict_get_fromkeys. destruct (str_in name ks); reflexivity.
Qed.

Lemma mask_names_in m l name : length m = length l -> NoDup l ->
  (In name (mask_names m l) <-> exists i, nth_error m i = Some true /\ nth_error l i = Some name).
Proof.
  revert l; induction m as [|b m IH]; intros [|x l] Hl Hnd; simpl in *; try discriminate.
  - split; [intros []|]. intros ([|i] & H & _); discriminate.
  - inversion Hnd; subst. specialize (IH l ltac:(lia) ltac:(auto)). destruct b; simpl; rewrite ?IH.
    + split.
      * intros [<-|(i & H3 & H4)]; [exists O; auto|exists (S i); auto].
      * intros ([|i] & H3 & H4); simpl in *; [left; congruence|right; eauto].
    + split.
      * intros (i & H3 & H4); exists (S i); auto.
      * intros ([|i] & H3 & H4); simpl in *; [discriminate|eauto].
Qed.
Lemma mask_names_length m l : length m = length l -> length (mask_names m l) = length (filter (fun b => b) m).
Proof.
  revert l; induction m as [|b m IH]; intros [|x l] Hl; simpl in *; try discriminate; auto.
  destruct b; simpl; rewrite IH; auto.
Qed.

Definition n_referenced (e : wse_env) := length (filter (fun b => b) (we_referenced e)).

Lemma default_weights_spec e :
  NoDup (we_names e) -> (forall k, In k (we_names e) -> lower k = k) ->
  length (we_referenced e) = length (we_names e) ->
  exists w, set_state_array (InDict (default_weights e)) (we_names e) = Ok w /\
    length w = length (we_names e) /\
    forall i, (i < length (we_names e))%nat ->
      nth_error w i =
      Some (if Nat.eqb (n_referenced e) 0 then 1 / INR (length (we_names e))
            else if nth i (we_referenced e) false then 1 / INR (n_referenced e) else 0).
Proof.
  intros Hnd Hlow Hlen.
  set (ks := if existsb (fun b => b) (we_referenced e) then mask_names (we_referenced e) (we_names e) else we_names e).
  assert (forall k, In k ks -> In k (we_names e)) as Hks.
  { intros k. unfold ks. destruct (existsb _ _); auto. rewrite mask_names_in by auto.
    intros (i & _ & H). eapply nth_error_In; eauto. }
  assert (default_weights e = dict_fromkeys ks (1 / INR (length ks))) as Hdw.
  { unfold default_weights, ks. destruct (existsb _ _); reflexivity. }
  assert (existsb (fun b => b) (we_referenced e) = negb (Nat.eqb (n_referenced e) 0)) as Hex.
  { unfold n_referenced. generalize (we_referenced e). induction l as [|[|] l IH]; simpl; auto. }
  rewrite Hdw.
  destruct (set_state_array_dict (dict_fromkeys ks (1 / INR (length ks))) (we_names e) Hnd)
    as [[_ (k & Hk & Hn)]|[_ (w & E & Hl & Hw)]].
  { exfalso. unfold dict_fromkeys in Hk. rewrite in_dict_of_pairs, map_map in Hk. simpl in Hk.
    rewrite map_id in Hk. apply Hn. rewrite Hlow; auto. }
  exists w. split; [auto|split; [auto|]]. intros i Hi.
  destruct (nth_error (we_names e) i) as [name|] eqn:En; [|apply nth_error_None in En; lia].
  rewrite (Hw _ _ En), value_for_fromkeys by auto.
  unfold ks. rewrite Hex. destruct (Nat.eqb_spec (n_referenced e) 0) as [H0|H0]; simpl.
  - assert (str_in name (we_names e) = true) as -> by (apply str_in_true; eapply nth_error_In; eauto). reflexivity.
  - rewrite mask_names_length by auto. fold (n_referenced e).
    assert (str_in name (mask_names (we_referenced e) (we_names e)) = nth i (we_referenced e) false) as ->; auto.
    destruct (nth i (we_referenced e) false) eqn:Er.
    + apply str_in_true, mask_names_in; auto. exists i. split; auto.
      rewrite <- Er. apply nth_error_nth'. lia.
    + apply str_in_false. rewrite mask_names_in by auto. intros (j & H1 & H2).
      assert (i = j) by (apply (NoDup_nth_error (we_names e)); auto; congruence). subst j.
      rewrite nth_error_nth' with (d := false) in H1 by lia. congruence.
Qed.

(** The value of a reward call, in one equation. *)
Lemma reward_unfold f s b v d e :
  configured f s b v ->
  weighted_errors (si_w s) (si_n s) (si_len s) (si_state s) (si_ref s) = Ok e ->
  wse_reward f (si_state s) (si_ref s) d = Ok ((1 - d) * (- e + b) + d * v).
Proof. intros (C1 & C2 & C3 & C4 & C5) E. unfold wse_reward. rewrite C1, C2, C3, C4, C5, E. reflexivity. Qed.
