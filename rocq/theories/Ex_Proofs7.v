(** Proofs about the modulation controller, the speed loop and the whole cascaded controller of
    induction motors in the examples (Ex_Model3.v). *)
From Verif Require Import PyBaseFacts PyDictFacts Transform_Model Ops_Model Ops_Proofs Ops_Props Ops_Props2.
From Verif Require Import PyBase PyDict PhysSys_Model Ex_Model Ex_Model2 Ex_Spec Ex_Proofs Ex_Proofs2 Ex_Proofs3 Ex_Proofs5 Ex_Model3 Ex_Spec2 Ex_Proofs6.
From Coq Require Import ZArith Lra Lia.
Local Open Scope string_scope.
Local Open Scope list_scope.
Local Open Scope R_scope.

(** ** The modulation controller *)
Definition mod_a (m : imt) (sd ld sq lq : R) : R := 2 * sqrt (sd * ld * (sd * ld) + sq * lq * (sq * lq)) / mt_udc m.
Definition mod_om (w lw : R) : R := Rmax (Rabs w * lw) (1 / 10000).
Definition mod_k (m : imt) (w lw : R) : R := mt_gain m * (2 * Rabs (mod_om w lw) * sc_p (mt_c m) / mt_udc m).
Lemma mod_eq m int x r : 0 <= mt_psimax m -> im_modulation m int x = Ok r -> exists sd ld sq lq w lw,
  item x (mt_usd m) = Ok sd /\ item (mt_limits m) (mt_usd m) = Ok ld /\ item x (mt_usq m) = Ok sq /\ item (mt_limits m) (mt_usq m) = Ok lq /\
  item x (mt_om m) = Ok w /\ item (mt_limits m) (mt_om m) = Ok lw /\
  let a := mod_a m sd ld sq lq in let P := mt_psimax m in
  let i := if rlt (101 / 100) a then 5 / 10 * - P else int in
  let d := mod_k m w lw * ((8 / 10 - a) * mt_tau m + i) in
  snd r = Rmax (mt_udc m / (sqrt 3 * Rabs (mod_om w lw) * sc_p (mt_c m)) + np_clip d (- P) (1 / 10 * P)) 0 /\
  (fst r = i \/ fst r = i + (8 / 10 - a) * mt_tau m).
Proof.
  intros P0 H. unfold im_modulation in H. ub6 H. apply ok_inj in H. subst r. do 6 eexists. do 6 (split; [first [eassumption|reflexivity]|]). cbn [fst snd]. unfold mod_k, mod_a, mod_om.
  set (av := 2 * sqrt _ / mt_udc m). set (iv := if rlt (101 / 100) av then _ else _). set (d := _ * _ * (_ + iv)).
  destruct (rle (- mt_psimax m) d && rle d (1 / 10 * mt_psimax m)) eqn:G.
  - apply andb_prop in G. destruct G as [G1 G2]. destruct (rleP (- mt_psimax m) d); [|discriminate]. destruct (rleP d (1 / 10 * mt_psimax m)); [|discriminate]. rewrite np_clip_id by lra. split; [reflexivity|right; reflexivity].
  - split; [reflexivity|left; reflexivity].
Qed.
Lemma clip_mono x y lo hi : lo <= hi -> x <= y -> np_clip x lo hi <= np_clip y lo hi.
Proof. intros. unfold np_clip, Rmin, Rmax. repeat destruct (Rle_dec _ _); lra. Qed.
Lemma clip_strict x y lo hi : x < y -> lo < y <= hi -> np_clip x lo hi < np_clip y lo hi.
Proof. intros. unfold np_clip, Rmin, Rmax. repeat destruct (Rle_dec _ _); lra. Qed.
(** Over-modulation leaves a negative integrator behind. *)
Lemma mod_over m int x r sd ld sq lq : 0 <= mt_psimax m -> 0 <= mt_tau m -> im_modulation m int x = Ok r ->
  item x (mt_usd m) = Ok sd -> item (mt_limits m) (mt_usd m) = Ok ld -> item x (mt_usq m) = Ok sq -> item (mt_limits m) (mt_usq m) = Ok lq ->
  101 / 100 < mod_a m sd ld sq lq -> fst r <= - (mt_psimax m / 2).
Proof.
  intros P0 T0 H A1 A2 A3 A4 O. destruct (mod_eq _ _ _ _ P0 H) as (sd' & ld' & sq' & lq' & w & lw & B1 & B2 & B3 & B4 & _ & _ & _ & F). cbn zeta in F. rewrite A1 in B1. rewrite A2 in B2. rewrite A3 in B3. rewrite A4 in B4. apply ok_inj in B1, B2, B3, B4. subst sd' ld' sq' lq'.
  destruct (rltP (101 / 100) (mod_a m sd ld sq lq)); [|lra]. assert (0 <= (mod_a m sd ld sq lq - 8 / 10) * mt_tau m) by (apply Rmult_le_pos; lra). destruct F as [-> | ->]; lra.
Qed.
(** A lower integrator gives a lower flux. *)
Lemma mod_lower m i1 i2 x r1 r2 : 0 < mt_psimax m -> 0 < mt_gain m -> 0 < sc_p (mt_c m) -> 0 < mt_udc m -> i1 <= i2 ->
  im_modulation m i1 x = Ok r1 -> im_modulation m i2 x = Ok r2 -> snd r1 <= snd r2 /\
  forall sd ld sq lq w lw, item x (mt_usd m) = Ok sd -> item (mt_limits m) (mt_usd m) = Ok ld -> item x (mt_usq m) = Ok sq -> item (mt_limits m) (mt_usq m) = Ok lq ->
    item x (mt_om m) = Ok w -> item (mt_limits m) (mt_om m) = Ok lw -> mod_a m sd ld sq lq <= 101 / 100 -> i1 < i2 -> 0 < snd r2 ->
    - mt_psimax m < mod_k m w lw * ((8 / 10 - mod_a m sd ld sq lq) * mt_tau m + i2) <= 1 / 10 * mt_psimax m -> snd r1 < snd r2.
Proof.
  intros P0 G0 Q0 U0 L H1 H2. pose proof (Rlt_le _ _ P0) as P1. destruct (mod_eq _ _ _ _ P1 H1) as (sd & ld & sq & lq & w & lw & B1 & B2 & B3 & B4 & B5 & B6 & F1 & _). destruct (mod_eq _ _ _ _ P1 H2) as (sd' & ld' & sq' & lq' & w' & lw' & C1 & C2 & C3 & C4 & C5 & C6 & F2 & _).
  cbn zeta in F1, F2. rewrite B1 in C1. rewrite B2 in C2. rewrite B3 in C3. rewrite B4 in C4. rewrite B5 in C5. rewrite B6 in C6. apply ok_inj in C1, C2, C3, C4, C5, C6. subst sd' ld' sq' lq' w' lw'.
  assert (K0 : 0 < mod_k m w lw). { unfold mod_k. assert (O0 : 0 < Rabs (mod_om w lw)) by (apply Rabs_pos_lt; unfold mod_om; pose proof (Rmax_r (Rabs w * lw) (1 / 10000)); lra). apply Rmult_lt_0_compat; [exact G0|]. apply Rmult_lt_0_compat; [|apply Rinv_0_lt_compat; exact U0]. apply Rmult_lt_0_compat; [lra|exact Q0]. }
  set (a := mod_a m sd ld sq lq) in *. set (k := mod_k m w lw) in *. set (B := mt_udc m / _) in *. split.
  - rewrite F1, F2. apply Rle_max_compat_r. apply Rplus_le_compat_l. apply clip_mono; [lra|]. apply Rmult_le_compat_l; [lra|]. destruct (rlt (101 / 100) a); lra.
  - intros sd' ld' sq' lq' w' lw' C1 C2 C3 C4 C5 C6. rewrite B1 in C1. rewrite B2 in C2. rewrite B3 in C3. rewrite B4 in C4. rewrite B5 in C5. rewrite B6 in C6. apply ok_inj in C1, C2, C3, C4, C5, C6. subst sd' ld' sq' lq' w' lw'. fold a k. intros A L' S2 D2.
    destruct (rltP (101 / 100) a) as [X|_]; [lra|]. rewrite F1, F2 in *.
    assert (CS : np_clip (k * ((8 / 10 - a) * mt_tau m + i1)) (- mt_psimax m) (1 / 10 * mt_psimax m) < np_clip (k * ((8 / 10 - a) * mt_tau m + i2)) (- mt_psimax m) (1 / 10 * mt_psimax m)). { apply clip_strict; [|exact D2]. apply Rmult_lt_compat_l; lra. }
    set (c1 := np_clip _ _ _) in *. set (c2 := np_clip (k * (_ + i2)) _ _) in *. clearbody c1 c2. unfold Rmax in *. repeat destruct (Rle_dec _ _); lra.
Qed.
Lemma im_alpha_gt : 1 < im_alpha.
Proof.
  unfold im_alpha. assert (S : 3 / 2 < sqrt (2 * 2 - 1) < 2). { split; [apply Rsqr_incrst_0; [|lra|apply sqrt_pos]; unfold Rsqr; rewrite sqrt_sqrt; lra|]. apply Rsqr_incrst_0; [|apply sqrt_pos|lra]; unfold Rsqr; rewrite sqrt_sqrt; lra. }
  apply Rmult_lt_reg_r with (2 - sqrt (2 * 2 - 1)); [lra|]. unfold Rdiv. rewrite Rmult_assoc, Rinv_l by lra. lra.
Qed.

(** ** The speed loop *)
Lemma sl_one l state r rest b ref bs ref' : length ref = 4%nat -> sl_refs l true state (r :: rest) ([b], ref) = Ok (bs, ref') ->
  exists si sj s lo hi b', at_ (sl_rsi l) 2 = Ok si /\ at_ (sl_rsi l) 3 = Ok sj /\ item state sj = Ok s /\ item (sl_low l) si = Ok lo /\ item (sl_high l) si = Ok hi /\ bs = [b'] /\
    let y := snd (b_control b s r) in
    ((85 / 100 * lo <= y <= 85 / 100 * hi /\ is_cont b = true /\ b_integrate (fst (b_control b s r)) s r = Ok b' /\ ref' = list_set 2 y (list_set 3 r ref)) \/
     (~ (85 / 100 * lo <= y <= 85 / 100 * hi /\ is_cont b = true) /\ b' = fst (b_control b s r) /\
      exists n m, item (sl_nom l) si = Ok n /\ item (sl_lim l) si = Ok m /\ ref' = list_set 2 (np_clip y (n / m * lo) (n / m * hi)) (list_set 3 r ref))).
Proof.
  intros L. destruct ref as [|a0 [|a1 [|a2 [|a3 [|]]]]]; try discriminate L. unfold sl_refs. cbn [item nth_error bind snd fst length set_back Nat.ltb Nat.leb Nat.sub list_set sl_range seq rev app sl_loop].
  unfold sl_stage. cbn [fst snd Nat.sub]. unfold at_ at 1. cbn [nth_error bind]. intros H. destruct (at_ (sl_rsi l) 3) as [sj|] eqn:E1; [|discriminate]. cbn [bind] in H. destruct (item state sj) as [s|] eqn:E2; [|discriminate]. cbn [bind item nth_error] in H.
  destruct (b_control b s r) as [b1 y] eqn:E3. cbn [bind] in H. destruct (at_ (sl_rsi l) 2) as [si|] eqn:E4; [|discriminate]. cbn [bind] in H. destruct (item (sl_low l) si) as [lo|] eqn:E5; [|discriminate]. cbn [bind] in H. destruct (item (sl_high l) si) as [hi|] eqn:E6; [|discriminate]. cbn [bind] in H.
  exists si, sj, s, lo, hi. rewrite E3. cbn [fst snd]. destruct (rle (85 / 100 * lo) y && rle y (85 / 100 * hi) && is_cont b) eqn:G.
  - destruct (b_integrate b1 s r) as [b2|] eqn:E7; [|discriminate]. cbn [bind list_set] in H. apply ok_inj in H. injection H as <- <-. exists b2. repeat (split; [reflexivity || assumption|]). left. apply andb_prop in G. destruct G as [G G3]. apply andb_prop in G. destruct G as [G1 G2].
    destruct (rleP (85 / 100 * lo) y); [|discriminate]. destruct (rleP y (85 / 100 * hi)); [|discriminate]. repeat split; try assumption; reflexivity.
  - destruct (item (sl_nom l) si) as [n|] eqn:E7; [|discriminate]. cbn [bind] in H. destruct (item (sl_lim l) si) as [m|] eqn:E8; [|discriminate]. cbn [bind list_set] in H. apply ok_inj in H. injection H as <- <-. exists b1. repeat (split; [reflexivity || assumption|]). right.
    split; [|split; [reflexivity|exists n, m; repeat split; reflexivity]]. intros [[X1 X2] X3]. rewrite X3 in G. destruct (rleP (85 / 100 * lo) y); [|lra]. destruct (rleP y (85 / 100 * hi)); [|lra]. discriminate G.
Qed.
(** Two or more stages index past the four states. *)
Lemma sl_two l state reference x : length (sl_rsi l) = 4%nat -> length (snd x) = 4%nat -> (2 <= length (fst x))%nat -> reference <> [] -> sl_refs l true state reference x = Err IndexError.
Proof.
  intros L1 L2 L3 L4. destruct x as [bs ref]. cbn [fst snd] in *. destruct reference as [|r rest]; [contradiction|]. unfold sl_refs. cbn [item nth_error bind fst snd]. unfold set_back. rewrite L2. cbn [Nat.ltb Nat.leb bind].
  destruct bs as [|b0 bs]; [cbn in L3; lia|]. destruct (@exists_last _ bs) as (bs' & bl & ->); [intros ->; cbn in L3; lia|]. unfold sl_range. cbn [length]. rewrite app_length. cbn [length]. replace (S (length bs' + 1)) with (S (S (length bs'))) by lia.
  rewrite seq_S, rev_app_distr. cbn [rev app sl_loop]. unfold sl_stage at 1. cbn [fst snd]. replace (2 + S (length bs') - 2)%nat with (S (length bs')) by lia. unfold at_ at 1. cbn [nth_error].
  rewrite nth_error_app2, Nat.sub_diag by lia. cbn [nth_error bind]. unfold at_. rewrite (proj2 (nth_error_None (sl_rsi l) (S (2 + S (length bs'))))) by (rewrite L1; lia). reflexivity.
Qed.

(** ** Reset and a fresh controller *)
Lemma bc_reset b s r : b_reset (fst (b_control b s r)) = b_reset b.
Proof. destruct b as [c|c|c|c]; cbn; try reflexivity. unfold tp_control. repeat match goal with |- context [if ?x then _ else _] => destruct x end; reflexivity. Qed.
Lemma bi_reset b s r b' : b_integrate b s r = Ok b' -> b_reset b' = b_reset b.
Proof. destruct b; cbn; intros H; try discriminate; apply ok_inj in H; subst b'; reflexivity. Qed.
Lemma make_reset e s ca ce b : base_make e s ca ce = Ok b -> b_reset b = b.
Proof. unfold base_make. intros H. destruct (stage_class (st_type s)) as [z|]; [|discriminate]. cbn [bind] in H. repeat (match type of H with (if ?x then _ else _) = _ => destruct x | bind ?x _ = _ => destruct x; [cbn [bind] in H|discriminate] end); apply ok_inj in H; subst b; reflexivity. Qed.
Lemma make_over_reset e ss bs : make_over e ss = Ok bs -> map b_reset bs = bs.
Proof. revert bs. induction ss as [|s ss IH]; cbn; intros bs H; [apply ok_inj in H; subst; reflexivity|]. destruct (base_make e s true false) as [b|] eqn:Eb; [|discriminate]. cbn [bind] in H. destruct (make_over e ss) as [l|] eqn:El; [|discriminate]. cbn [bind] in H. apply ok_inj in H. subst bs. cbn. rewrite (make_reset _ _ _ _ _ Eb), (IH _ eq_refl). reflexivity. Qed.
Lemma map_list_set {A B} (f : A -> B) i v l w : nth_error l i = Some w -> f v = f w -> map f (list_set i v l) = map f l.
Proof. revert l. induction i as [|i IH]; intros [|x l] N F; cbn in *; try discriminate; [injection N as ->; rewrite F; reflexivity|]. rewrite IH; auto. Qed.

(** Which entries of [self.ref] can be read before they are written *)
Definition ref_inv (torque omega : bool) (k : nat) (ref : list R) : Prop :=
  length ref = (2 + (if torque then 1 else 0) + (if omega then 1 else 0))%nat /\ (omega = true -> torque = true) /\
  (torque = false -> nth_error ref 0 = Some 0) /\ (omega = true -> k = 0%nat -> nth_error ref 2 = Some 0).
Lemma sl_inv l torque omega state reference bs ref y : length (sl_rsi l) = length ref -> ref_inv torque omega (length bs) ref -> sl_refs l omega state reference (bs, ref) = Ok y ->
  map b_reset (fst y) = map b_reset bs /\ length (fst y) = length bs /\ ref_inv torque omega (length bs) (snd y) /\ (torque = false -> exists r, item reference 0 = Ok r /\ snd y = [0; r]).
Proof.
  intros LR (L & OT & T0 & O2) H. destruct omega.
  - rewrite (OT eq_refl) in *. cbn in L. destruct reference as [|r rest]; [discriminate H|]. destruct bs as [|b [|b' bs]].
    + destruct ref as [|a0 [|a1 [|a2 [|a3 [|]]]]]; try discriminate L. cbn in H. apply ok_inj in H. subst y. cbn. specialize (O2 eq_refl eq_refl). cbn in O2. split; [reflexivity|]. split; [reflexivity|]. split; [|discriminate]. split; [reflexivity|]. split; [auto|]. split; [discriminate|]. intros _ _. exact O2.
    + destruct y as [bs ref']. destruct (sl_one l state r rest b ref bs ref' L H) as (si & sj & s & lo & hi & b' & _ & _ & _ & _ & _ & -> & C). cbn [fst snd].
      assert (M : b_reset b' = b_reset b /\ length ref' = 4%nat). { destruct C as [(_ & _ & C & ->)|(_ & -> & n & m & _ & _ & ->)]; rewrite !list_set_length; (split; [|exact L]). - rewrite (bi_reset _ _ _ _ C). apply bc_reset. - apply bc_reset. }
      destruct M as [M1 M2]. cbn [map length]. rewrite M1. split; [reflexivity|]. split; [reflexivity|]. split; [|discriminate]. split; [exact M2|]. split; [auto|]. split; [discriminate|]. intros _ Z. discriminate Z.
    + rewrite (sl_two l state (r :: rest) (b :: b' :: bs, ref)) in H; [discriminate|rewrite LR; exact L|exact L|cbn; lia|discriminate].
  - unfold sl_refs in H. destruct (item reference 0) as [r|]; [|discriminate]. cbn [bind snd fst] in H. unfold set_back in H. destruct torque; cbn in L.
    + destruct ref as [|a0 [|a1 [|a2 [|]]]]; try discriminate L. cbn in H. apply ok_inj in H. subst y. cbn. split; [reflexivity|]. split; [reflexivity|]. split; [|discriminate]. split; [reflexivity|]. split; [auto|]. split; discriminate.
    + destruct ref as [|a0 [|a1 [|]]]; try discriminate L. cbn in H. apply ok_inj in H. subst y. cbn. specialize (T0 eq_refl). cbn in T0. injection T0 as ->. split; [reflexivity|]. split; [reflexivity|]. split; [|intros _; exists r; split; reflexivity]. split; [reflexivity|]. split; [auto|]. split; [auto|discriminate].
Qed.
(** Two such [ref]s give the same readings. *)
Lemma sl_same l torque omega state reference bs ref ref2 : length (sl_rsi l) = length ref -> ref_inv torque omega (length bs) ref -> ref_inv torque omega (length bs) ref2 ->
  match sl_refs l omega state reference (bs, ref), sl_refs l omega state reference (bs, ref2) with
  | Ok y, Ok y2 => fst y = fst y2 /\ (if torque then item (snd y) 2 = item (snd y2) 2 else snd y = snd y2)
  | Err x, Err x2 => x = x2
  | _, _ => False
  end.
Proof.
  intros LR I1 I2. destruct I1 as (L & OT & T0 & O2). destruct I2 as (L2 & _ & T02 & O22). destruct omega.
  - rewrite (OT eq_refl) in *. cbn in L, L2. destruct reference as [|r rest]; [reflexivity|]. destruct bs as [|b [|b' bs]].
    + destruct ref as [|a0 [|a1 [|a2 [|a3 [|]]]]]; try discriminate L. destruct ref2 as [|c0 [|c1 [|c2 [|c3 [|]]]]]; try discriminate L2. specialize (O2 eq_refl eq_refl). specialize (O22 eq_refl eq_refl). cbn in O2, O22 |- *. injection O2 as ->. injection O22 as ->. split; reflexivity.
    + destruct ref as [|a0 [|a1 [|a2 [|a3 [|]]]]]; try discriminate L. destruct ref2 as [|c0 [|c1 [|c2 [|c3 [|]]]]]; try discriminate L2. unfold sl_refs. cbn [item nth_error bind snd fst length set_back Nat.ltb Nat.leb Nat.sub list_set sl_range seq rev app sl_loop].
      unfold sl_stage. cbn [fst snd Nat.sub]. change (at_ [b] 0) with (Ok b). cbn [nth_error bind]. destruct (at_ (sl_rsi l) 3) as [sj|]; [|reflexivity]. cbn [bind]. destruct (item state sj) as [s|]; [|reflexivity]. cbn [bind item nth_error].
      destruct (b_control b s r) as [b1 y]. cbn [bind]. destruct (at_ (sl_rsi l) 2) as [si|]; [|reflexivity]. cbn [bind]. destruct (item (sl_low l) si) as [lo|]; [|reflexivity]. cbn [bind]. destruct (item (sl_high l) si) as [hi|]; [|reflexivity]. cbn [bind].
      destruct (rle (85 / 100 * lo) y && rle y (85 / 100 * hi) && is_cont b).
      * destruct (b_integrate b1 s r) as [b2|]; [|reflexivity]. cbn. split; reflexivity.
      * destruct (item (sl_nom l) si) as [n|]; [|reflexivity]. cbn [bind]. destruct (item (sl_lim l) si) as [m|]; [|reflexivity]. cbn. split; reflexivity.
    + rewrite (sl_two l state (r :: rest) (b :: b' :: bs, ref)); [|rewrite LR; exact L|exact L|cbn; lia|discriminate]. rewrite (sl_two l state (r :: rest) (b :: b' :: bs, ref2)); [reflexivity|rewrite LR; exact L|exact L2|cbn; lia|discriminate].
  - unfold sl_refs. destruct (item reference 0) as [r|]; [|reflexivity]. cbn [bind snd fst]. unfold set_back. destruct torque; cbn in L, L2.
    + destruct ref as [|a0 [|a1 [|a2 [|]]]]; try discriminate L. destruct ref2 as [|c0 [|c1 [|c2 [|]]]]; try discriminate L2. cbn. split; reflexivity.
    + destruct ref as [|a0 [|a1 [|]]]; try discriminate L. destruct ref2 as [|c0 [|c1 [|]]]; try discriminate L2. specialize (T0 eq_refl). specialize (T02 eq_refl). cbn in T0, T02 |- *. injection T0 as ->. injection T02 as ->. split; reflexivity.
Qed.

(** ** The whole controller *)
Definition cinv (c : imcp) (s : imcs) : Prop :=
  ref_inv (cp_torque c) (cp_omega c) (length (cs_over s)) (cs_ref s) /\ length (sl_rsi (cp_sl c)) = length (cs_ref s).
Definition same_but_ref (s s2 : imcs) : Prop :=
  cs_flux s = cs_flux s2 /\ cs_t s = cs_t s2 /\ cs_d s = cs_d s2 /\ cs_q s = cs_q s2 /\ cs_over s = cs_over s2.
Definition psi_reset (t : option ims) : option pi := match t with None => None | Some t => Some (pi_reset (is_psi t)) end.
(** what [reset] makes of a controller *)
Definition same_reset (s s2 : imcs) : Prop :=
  psi_reset (cs_t s) = psi_reset (cs_t s2) /\ b_reset (cs_d s) = b_reset (cs_d s2) /\ b_reset (cs_q s) = b_reset (cs_q s2) /\ map b_reset (cs_over s) = map b_reset (cs_over s2).
Lemma imc_torque_same c ts x ref ref2 psi : (if cp_torque c then item ref 2 = item ref2 2 else ref = ref2) -> imc_torque c ts x ref psi = imc_torque c ts x ref2 psi.
Proof. unfold imc_torque. destruct (cp_torque c); [intros ->|intros ->]; reflexivity. Qed.
Lemma imc_step_same c s s2 x r : cinv c s -> cinv c s2 -> same_but_ref s s2 ->
  match imc_control c s x r, imc_control c s2 x r with
  | Err e, Err e2 => e = e2 | Ok None, Ok None => True | Ok (Some (s', a)), Ok (Some (s2', a2)) => a = a2 /\ same_but_ref s' s2' | _, _ => False
  end.
Proof.
  intros [I1 L1] [I2 L2] (S1 & S2 & S3 & S4 & S5). unfold imc_control. rewrite <- S1, <- S2, <- S3, <- S4, <- S5. rewrite <- S5 in I2. destruct (fb_estimate (cp_fb c) (cs_flux s) (map2 Rmult x (cp_limits c))) as [f|]; [|reflexivity]. cbn [bind].
  pose proof (sl_same (cp_sl c) _ _ x r (cs_over s) (cs_ref s) (cs_ref s2) L1 I1 I2) as SS. destruct (sl_refs (cp_sl c) (cp_omega c) x r (cs_over s, cs_ref s)) as [y|]; destruct (sl_refs (cp_sl c) (cp_omega c) x r (cs_over s, cs_ref s2)) as [y2|]; try contradiction; [|exact SS].
  destruct SS as [SO SR]. cbn [bind]. rewrite <- (imc_torque_same c (cs_t s) x _ _ _ SR). destruct (imc_torque c (cs_t s) x (snd y) (fst (snd f))) as [t|]; [|reflexivity]. cbn [bind]. destruct (fst (snd t)) as [rq|]; [|exact I].
  destruct (imc_voltage c (cs_d s) (cs_q s) x rq (snd (snd t)) (fst (snd f)) (snd (snd f))) as [v|]; [|reflexivity]. cbn [bind]. split; [reflexivity|]. repeat split. exact SO.
Qed.
Lemma imt_control_psi m s x t psi o : imt_control m s x t psi = Ok o -> pi_reset (is_psi (fst o)) = pi_reset (is_psi s).
Proof. unfold imt_control. intros H. ub6 H. apply ok_inj in H. subst o. cbn [fst is_psi]. match goal with |- context [if ?b then _ else _] => destruct b end; reflexivity. Qed.
Lemma imc_voltage_reset c d q x rq rd psi an v : imc_voltage c d q x rq rd psi an = Ok v -> b_reset (fst (fst v)) = b_reset d /\ b_reset (snd (fst v)) = b_reset q.
Proof.
  unfold imc_voltage. intros H. ub6 H. repeat match type of H with context [b_control ?b ?s ?r] => let G := fresh "G" in pose proof (bc_reset b s r) as G; destruct (b_control b s r) as [? ?]; cbn [fst] in G end. ub6 H.
  destruct (snd _) in H.
  - match type of H with bind ?u _ = _ => destruct u eqn:V1 in H; [|discriminate H] end. cbn [bind] in H. match type of H with bind ?u _ = _ => destruct u eqn:V2 in H; [|discriminate H] end. cbn [bind] in H. apply ok_inj in H. subst v. cbn [fst snd]. apply bi_reset in V1. apply bi_reset in V2. split; congruence.
  - apply ok_inj in H. subst v. cbn [fst snd]. split; congruence.
Qed.
Lemma imc_step_inv c s x r s' a : cinv c s -> imc_control c s x r = Ok (Some (s', a)) -> cinv c s' /\ same_reset s' s.
Proof.
  intros [I1 L1] H. unfold imc_control in H. destruct (fb_estimate (cp_fb c) (cs_flux s) (map2 Rmult x (cp_limits c))) as [f|]; [|discriminate]. cbn [bind] in H.
  destruct (sl_refs (cp_sl c) (cp_omega c) x r (cs_over s, cs_ref s)) as [y|] eqn:Ey; [|discriminate]. cbn [bind] in H. destruct (sl_inv _ _ _ _ _ _ _ _ L1 I1 Ey) as (M & LM & J & C0).
  destruct (imc_torque c (cs_t s) x (snd y) (fst (snd f))) as [t|] eqn:Et; [|discriminate]. cbn [bind] in H. destruct (fst (snd t)) as [rq|] eqn:Eq; [|discriminate].
  destruct (imc_voltage c (cs_d s) (cs_q s) x rq (snd (snd t)) (fst (snd f)) (snd (snd f))) as [v|] eqn:Ev; [|discriminate]. cbn [bind] in H. apply ok_inj in H. apply some_inj in H. apply (f_equal fst) in H. cbn [fst] in H. subst s'. destruct (imc_voltage_reset _ _ _ _ _ _ _ _ _ Ev) as [V1 V2].
  destruct I1 as (K1 & K2 & K3 & K4). destruct J as (J1 & J2 & J3 & J4). unfold cinv, same_reset. cbn [cs_over cs_ref cs_t cs_d cs_q]. rewrite LM. split; [split; [split; [|split; [|split]]|]|].
  - rewrite !list_set_length. exact J1.
  - exact J2.
  - intros T. destruct (C0 T) as (r0 & _ & E0). unfold imc_torque in Et. rewrite T, E0 in Et. cbn in Et. apply ok_inj in Et. subst t. cbn in Eq. injection Eq as <-. rewrite E0. reflexivity.
  - intros O Z. rewrite !list_set_other by discriminate. exact (J4 O Z).
  - rewrite L1, !list_set_length, J1, K1. reflexivity.
  - split; [|split; [exact V1|split; [exact V2|exact M]]]. unfold imc_torque in Et. destruct (cp_torque c).
    + destruct (cp_t c) as [m|]; [|discriminate]. destruct (cs_t s) as [ts|] eqn:Ts; [|discriminate]. ub6 Et. apply ok_inj in Et. subst t. cbn [fst psi_reset]. f_equal. match goal with [ W : imt_control m ts _ _ _ = Ok ?o |- _ ] => exact (imt_control_psi _ _ _ _ _ _ W) end.
    + ub6 Et. apply ok_inj in Et. subst t. reflexivity.
Qed.
Lemma b_reset_idem b : b_reset (b_reset b) = b_reset b.
Proof. destruct b; reflexivity. Qed.
Lemma imc_reset_inv c s : cinv c s -> cinv c (imc_reset s) /\ same_reset (imc_reset s) s.
Proof.
  intros [I1 L1]. unfold cinv, same_reset, imc_reset. cbn. rewrite map_length. split; [split; assumption|]. split; [destruct (cs_t s); reflexivity|]. split; [apply b_reset_idem|]. split; [apply b_reset_idem|]. rewrite map_map. apply map_ext. exact b_reset_idem.
Qed.
Lemma same_reset_trans a b c : same_reset a b -> same_reset b c -> same_reset a c.
Proof. unfold same_reset. intuition congruence. Qed.
Lemma imc_run_inv c h : forall s s' l, cinv c s -> imc_run c s h = Ok (Some (s', l)) -> cinv c s' /\ same_reset s' s.
Proof.
  induction h as [|[x r|] h IH]; intros s s' l C H; cbn [imc_run] in H.
  - apply ok_inj in H. injection H as <- _. split; [exact C|repeat split].
  - destruct (imc_control c s x r) as [[[s1 a]|]|] eqn:E1; try discriminate. cbn [bind] in H. destruct (imc_run c s1 h) as [[[s2 l2]|]|] eqn:E2; try discriminate. cbn [bind] in H. apply ok_inj in H. injection H as <- _. destruct (imc_step_inv _ _ _ _ _ _ C E1) as [C1 R1]. destruct (IH _ _ _ C1 E2) as [C2 R2]. split; [exact C2|]. exact (same_reset_trans _ _ _ R2 R1).
  - destruct (imc_reset_inv _ _ C) as [C1 R1]. destruct (IH _ _ _ C1 H) as [C2 R2]. split; [exact C2|]. exact (same_reset_trans _ _ _ R2 R1).
Qed.
Lemma imc_run_same c h : forall s s2, cinv c s -> cinv c s2 -> same_but_ref s s2 -> acts_of (imc_run c s h) = acts_of (imc_run c s2 h).
Proof.
  induction h as [|[x r|] h IH]; intros s s2 C C2 S; cbn [imc_run].
  - reflexivity.
  - pose proof (imc_step_same c s s2 x r C C2 S) as SS. destruct (imc_control c s x r) as [[[s' a]|]|] eqn:E1; destruct (imc_control c s2 x r) as [[[s2' a2]|]|] eqn:E2; try contradiction; [|reflexivity|cbn; congruence].
    destruct SS as [<- SS]. cbn [bind]. pose proof (IH s' s2' (proj1 (imc_step_inv _ _ _ _ _ _ C E1)) (proj1 (imc_step_inv _ _ _ _ _ _ C2 E2)) SS) as R. destruct (imc_run c s' h) as [[[? ?]|]|]; destruct (imc_run c s2' h) as [[[? ?]|]|]; cbn in R |- *; try discriminate R; congruence.
  - apply IH; [apply imc_reset_inv; exact C|apply imc_reset_inv; exact C2|]. destruct S as (S1 & S2 & S3 & S4 & S5). unfold same_but_ref, imc_reset. cbn. rewrite S2, S3, S4, S5. repeat split.
Qed.
(** a new controller *)
Lemma imc_new_inv e ss0 ss1 refs dec c s : imc_new e ss0 ss1 refs dec = Ok (c, s) ->
  cinv c s /\ cs_flux s = (0, 0) /\ b_reset (cs_d s) = cs_d s /\ b_reset (cs_q s) = cs_q s /\ map b_reset (cs_over s) = cs_over s /\ int_of s = 0 /\
  (forall t, cs_t s = Some t -> pi_reset (is_psi t) = is_psi t) /\ cp_torque c = torque_mode refs /\ cp_omega c = has "omega" refs /\
  (cs_over s = [] \/ exists l, make_over e ss1 = Ok l /\ cs_over s = l).
Proof.
  unfold imc_new. destruct (en_space e) as [low high| |]; try discriminate. intros H. ub6 H. apply ok_inj in H. pose proof (f_equal fst H) as Hc. pose proof (f_equal snd H) as Hs. cbn [fst snd] in Hc, Hs. clear H. subst c s. unfold cinv. cbn [cs_over cs_ref cs_t cs_d cs_q cs_flux cp_torque cp_omega cp_sl sl_rsi].
  match goal with [ U : (if has "omega" refs then make_over e ss1 else Ok []) = Ok ?l |- _ ] => rename l into over; rename U into Ho end.
  match goal with [ U : (if torque_mode refs then _ else Ok (None, None)) = Ok ?z |- _ ] => rename z into tz; rename U into Ht end.
  assert (OT : has "omega" refs = true -> torque_mode refs = true) by (intros Z; unfold torque_mode; rewrite Z; apply Bool.orb_true_r).
  assert (RI : ref_inv (torque_mode refs) (has "omega" refs) (length over) (repeat 0 (length (mode_idx 0 0 0 0 refs)))).
  { unfold ref_inv, mode_idx. destruct (torque_mode refs); destruct (has "omega" refs); cbn; try (specialize (OT eq_refl); discriminate OT); repeat split; auto; discriminate. }
  assert (LM : forall a b c d, length (mode_idx a b c d refs) = length (mode_idx 0 0 0 0 refs)) by (intros; unfold mode_idx; destruct (torque_mode refs); destruct (has "omega" refs); reflexivity).
  rewrite LM. split; [split; [exact RI|rewrite repeat_length; apply LM]|]. split; [reflexivity|]. split; [eapply make_reset; eassumption|]. split; [eapply make_reset; eassumption|].
  split; [destruct (has "omega" refs); [eapply make_over_reset; exact Ho|apply ok_inj in Ho; subst; reflexivity]|].
  assert (TT : int_of {| cs_ref := []; cs_flux := (0, 0); cs_t := snd tz; cs_d := BPi (Build_pi 0 0 0 0); cs_q := BPi (Build_pi 0 0 0 0); cs_over := [] |} = 0 /\ forall t, snd tz = Some t -> pi_reset (is_psi t) = is_psi t).
  { destruct (torque_mode refs).
    - ub6 Ht. apply ok_inj in Ht. subst tz. match goal with [ W : imt_new e _ = Ok ?z |- _ ] => destruct z as [m s0]; unfold imt_new in W; ub6 W; apply ok_inj in W; injection W as _ <- end. cbn. split; [reflexivity|]. intros t Z. injection Z as <-. reflexivity.
    - apply ok_inj in Ht. subst tz. cbn. split; [reflexivity|discriminate]. }
  destruct TT as [T1 T2]. split; [exact T1|]. split; [exact T2|]. split; [reflexivity|]. split; [reflexivity|]. destruct (has "omega" refs); [right; exists over; split; [exact Ho|reflexivity]|left; apply ok_inj in Ho; subst; reflexivity].
Qed.
Lemma imc_after_reset e ss0 ss1 refs dec c s0 h s l : imc_new e ss0 ss1 refs dec = Ok (c, s0) -> imc_run c s0 h = Ok (Some (s, l)) ->
  forall h', acts_of (imc_run c (imc_reset s) h') = acts_of (imc_run c (with_int (int_of s) s0) h').
Proof.
  intros N H h'. destruct (imc_new_inv _ _ _ _ _ _ _ N) as (C0 & F0 & D0 & Q0 & O0 & _ & P0 & _). destruct (imc_run_inv _ _ _ _ _ C0 H) as [C1 (R1 & R2 & R3 & R4)].
  apply imc_run_same; [apply imc_reset_inv; exact C1|exact C0|]. unfold same_but_ref, imc_reset, with_int. cbn. rewrite F0. split; [reflexivity|]. split; [|split; [congruence|split; congruence]].
  unfold int_of. unfold psi_reset in R1. destruct (cs_t s) as [t|]; destruct (cs_t s0) as [t0|]; try discriminate; [|reflexivity]. unfold imt_reset. f_equal. f_equal. rewrite <- (P0 t0 eq_refl). congruence.
Qed.

(** Without torque or speed among the reference states *)
Lemma imc_current c s x r : cinv c s -> cp_torque c = false -> forall s' a, imc_control c s x r = Ok (Some (s', a)) -> exists r0, item r 0 = Ok r0 /\ cs_ref s' = [0; r0].
Proof.
  intros [I1 L1] T s' a H. unfold imc_control in H. destruct (fb_estimate (cp_fb c) (cs_flux s) (map2 Rmult x (cp_limits c))) as [f|]; [|discriminate]. cbn [bind] in H.
  destruct (sl_refs (cp_sl c) (cp_omega c) x r (cs_over s, cs_ref s)) as [y|] eqn:Ey; [|discriminate]. cbn [bind] in H. destruct (sl_inv _ _ _ _ _ _ _ _ L1 I1 Ey) as (_ & _ & _ & C0). destruct (C0 T) as (r0 & Er & E0). exists r0. split; [exact Er|].
  unfold imc_torque in H. rewrite T, E0 in H. cbn in H. destruct (imc_voltage c (cs_d s) (cs_q s) x 0 r0 (fst (snd f)) (snd (snd f))) as [v|]; [|discriminate]. cbn in H. apply ok_inj in H. injection H as <- _. reflexivity.
Qed.

(** ** The action *)
Lemma clip_scaled L x : 0 < L -> L * np_clip (x / L) (-1) 1 = np_clip x (- L) L.
Proof.
  intros P. assert (I : 0 < / L) by (apply Rinv_0_lt_compat; exact P). assert (X : L * (x / L) = x) by (field; lra). unfold np_clip, Rmin, Rmax. repeat destruct (Rle_dec _ _); try lra;
    try (exfalso; match goal with [ N : ~ ?a <= ?b |- _ ] => apply N end; nra); try nra.
Qed.
Lemma imc_action_spec c L ud uq angle act ok : standard_box c L -> imc_action c ud uq angle = Ok (act, ok) ->
  exists a b d, backward ud uq angle = Ok [a; b; d] /\ act = map (fun x => np_clip (x / L) (-1) 1) [a; b; d] /\ a + b + d = 0 /\
    (ok = true <-> Forall (fun x => - L <= x <= L) [a; b; d]).
Proof.
  intros (B1 & B2 & B3 & P) H. unfold imc_action in H. assert (EB : dq_to_abc [ud; uq] angle false = backward ud uq angle) by reflexivity. rewrite EB in H. destruct (backward_ok ud uq angle) as (raw & E0). pose proof (backward_length _ _ _ _ E0) as LR. rewrite E0 in H. cbn [bind] in H. rewrite B3, B1, B2 in H. cbn [bind] in H.
  destruct raw as [|a [|b [|d [|]]]]; try discriminate LR. exists a, b, d. split; [exact E0|]. cbn [map2 length Nat.eqb bind] in H. apply ok_inj in H. pose proof (f_equal fst H) as H1. pose proof (f_equal snd H) as H2. cbn [fst snd map2 combine forallb] in H1, H2. clear H. split; [symmetry; exact H1|]. split.
  - unfold backward, q in E0. cbn in E0. apply ok_inj in E0. injection E0 as <- <- <-. field.
  - assert (K : forall x, req (np_clip (x / L) (-1) 1) (x / L) = true <-> - L <= x <= L).
    { intros x. assert (X : L * (x / L) = x) by (field; lra). destruct (reqP (np_clip (x / L) (-1) 1) (x / L)) as [Q|Q].
      - split; [intros _|reflexivity]. pose proof (np_clip_both (x / L) (-1) 1 ltac:(lra)) as C. rewrite Q in C. rewrite <- X. split; nra.
      - split; [discriminate|]. intros C. exfalso. apply Q. apply np_clip_id. split; apply Rmult_le_reg_l with L; lra. }
    rewrite <- H2. clear H1 H2. split.
    + intros G. apply andb_prop in G. destruct G as [G1 G]. apply andb_prop in G. destruct G as [G2 G]. apply andb_prop in G. destruct G as [G3 _]. apply K in G1. apply K in G2. apply K in G3. repeat (constructor; [assumption|]). constructor.
    + intros F. inversion F as [|? ? F1 F']. inversion F' as [|? ? F2 F'']. inversion F'' as [|? ? F3 _]. subst. apply K in F1. apply K in F2. apply K in F3. rewrite F1, F2, F3. reflexivity.
Qed.
Lemma imc_action_makes c L ud uq angle act ok : standard_box c L -> imc_action c ud uq angle = Ok (act, ok) -> box_action act /\ (ok = true <-> makes L act angle ud uq).
Proof.
  intros S H. pose proof S as (_ & _ & _ & P). destruct (imc_action_spec _ _ _ _ _ _ _ S H) as (a & b & d & E0 & -> & Z & OK). split.
  - split; [reflexivity|]. cbn. repeat (constructor; [apply np_clip_both; lra|]). constructor.
  - rewrite OK. unfold makes. assert (M : map (Rmult L) (map (fun x => np_clip (x / L) (-1) 1) [a; b; d]) = map (fun x => np_clip x (- L) L) [a; b; d]) by (cbn [map]; rewrite !clip_scaled by exact P; reflexivity). rewrite M. split.
    + intros F. inversion F as [|? ? F1 F']. inversion F' as [|? ? F2 F'']. inversion F'' as [|? ? F3 _]. subst. cbn [map]. rewrite !np_clip_id by assumption. pose proof (backward_offset ud uq angle 0 [a; b; d] E0) as Q. cbn [map] in Q. rewrite !Rminus_0_r in Q. exact Q.
    + intros Q. destruct (same_dq_offset _ _ _ _ _ (eq_refl : length (map (fun x => np_clip x (- L) L) [a; b; d]) = 3%nat) Q E0) as (k & K). cbn [map] in K. injection K as K1 K2 K3.
      assert (C : forall x, np_clip x (- L) L = x - k -> (k = 0 /\ - L <= x <= L) \/ (0 < k /\ L < x) \/ (k < 0 /\ x < - L)). { intros x Kx. destruct (np_clip_cases x (- L) L ltac:(lra)) as [[? E]|[[? E]|[? E]]]; rewrite E in Kx; [right; right|left|right; left]; split; lra. }
      destruct (C _ K1) as [[? ?]|[[? ?]|[? ?]]]; destruct (C _ K2) as [[? ?]|[[? ?]|[? ?]]]; destruct (C _ K3) as [[? ?]|[[? ?]|[? ?]]]; try lra. repeat (constructor; [lra|]). constructor.
Qed.
Lemma imc_voltage_law c L pd pq x rq rd psi an d' q' act : standard_box c L -> imc_voltage c (BPi pd) (BPi pq) x rq rd psi an = Ok (d', q', act) ->
  exists w isd isq ld lq, item (map2 Rmult x (cp_limits c)) (cp_om c) = Ok w /\ item (map2 Rmult x (cp_limits c)) (cp_isd c) = Ok isd /\ item (map2 Rmult x (cp_limits c)) (cp_isq c) = Ok isq /\
    item (cp_limits c) (cp_isd c) = Ok ld /\ item (cp_limits c) (cp_isq c) = Ok lq /\
    let ws := if_omega_s (cp_f c) w isq psi in
    let ud := (if cp_dec c then if_usd0 (cp_f c) ws isq psi else 0) + pi_control pd isd (rd * ld) in
    let uq := (if cp_dec c then if_usq0 (cp_f c) ws w isd psi else 0) + pi_control pq isq (rq * lq) in
    box_action act /\
    ((makes L act an ud uq /\ d' = BPi (pi_integrate pd isd (rd * ld)) /\ q' = BPi (pi_integrate pq isq (rq * lq))) \/
     (~ makes L act an ud uq /\ d' = BPi pd /\ q' = BPi pq)).
Proof.
  intros S H. unfold imc_voltage in H. ub6 H. cbn [b_control] in H. ub6 H. do 5 eexists. do 5 (split; [first [reflexivity|eassumption]|]).
  match goal with [ W : imc_action c ?u1 ?u2 an = Ok ?z |- _ ] => destruct z as [ac ok]; rename W into EA end. cbn [fst snd] in H.
  destruct (imc_action_makes _ _ _ _ _ _ _ S EA) as [BA MK]. destruct (cp_dec c); cbn [fst snd] in *; destruct ok; cbn [b_integrate bind] in H; apply ok_inj in H; injection H as <- <- <-; (split; [exact BA|]); first [left; split; [apply MK; reflexivity|split; reflexivity] | right; split; [intros G; apply MK in G; discriminate G|split; reflexivity]].
Qed.
