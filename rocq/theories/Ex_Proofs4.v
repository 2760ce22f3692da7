(** Proofs about the tuned current loop of the examples and the induction motor controller. *)
From Verif Require Import PyBase PyBaseFacts PyDict PyDictFacts Transform_Model PhysSys_Model Motor_Model Loop_Proofs Ex_Model Ex_Model2 Ex_Spec Ex_Proofs Ex_Proofs2 Ex_Proofs3.
Local Open Scope string_scope.
Local Open Scope list_scope.
Local Open Scope R_scope.

(** *** The loop as a recurrence *)
Section Recurrence.
Variables (a tau L Rs r : R) (i z : nat -> R).
Hypothesis Ha : 0 < a.
Hypothesis Ht : 0 < tau.
Hypothesis HL : 0 < L.
Hypothesis Hz : forall k, z (S k) = z k + (r - i k) * tau.
Hypothesis Hi : forall k, i (S k) = i k + tau / L * (L / (tau * a) * (r - i k) + L / (tau * a) / (tau * (a * a)) * (z k + (r - i k) * tau) - Rs * i k).
Lemma pi_recurrence k : i (S (S k)) - r = (2 - 1 / a - 1 / (a * a * a) - tau * Rs / L) * (i (S k) - r) - (1 - 1 / a - tau * Rs / L) * (i k - r).
Proof.
  assert (Z : z k * (L / (tau * a) / (tau * (a * a))) = L / tau * (i (S k) - i k) - L / (tau * a) * (r - i k) - L / (tau * a) / (tau * (a * a)) * ((r - i k) * tau) + Rs * i k) by (rewrite (Hi k); field; lra).
  rewrite (Hi (S k)), (Hz k). set (x := i (S k)) in *. set (y := i k) in *. clearbody x y.
  replace (L / (tau * a) / (tau * (a * a)) * (z k + (r - y) * tau + (r - x) * tau)) with (z k * (L / (tau * a) / (tau * (a * a))) + L / (tau * a) / (tau * (a * a)) * ((r - y) * tau) + L / (tau * a) / (tau * (a * a)) * ((r - x) * tau)) by ring.
  rewrite Z. field. lra.
Qed.
Lemma pi_converges : 2 * (tau * Rs / L) + 2 / a + 1 / (a * a * a) < 4 -> 0 < 1 / a + tau * Rs / L -> Un_cv i r.
Proof.
  intros S1 S2. assert (A3 : 0 < 1 / (a * a * a)) by (apply Rdiv_lt_0_compat; [lra|repeat apply Rmult_lt_0_compat; lra]). replace (2 / a) with (2 * (1 / a)) in S1 by (field; lra).
  assert (C : Un_cv (fun k => i k - r) 0).
  { apply (recurrence_converges (2 - 1 / a - 1 / (a * a * a) - tau * Rs / L) (1 - 1 / a - tau * Rs / L)); [lra|split; lra|]. exact pi_recurrence. }
  intros eps He. destruct (C eps He) as (N & HN). exists N. intros n Hn. specialize (HN n Hn). unfold R_dist in *. rewrite Rminus_0_r in HN. exact HN.
Qed.
End Recurrence.

Lemma str_index_fun s l i j : str_index s l = Ok i -> str_index s l = Ok j -> i = j.
Proof. congruence. Qed.
Lemma inside_clip lo hi x : lo < np_clip x lo hi < hi -> lo <= x <= hi.
Proof.
  unfold np_clip. intros [A B]. unfold Rmin, Rmax in *. destruct (Rle_dec x lo), (Rle_dec _ hi); try lra.
Qed.

(** The tuned controller *)
Lemma tuned_gains e m li lu a s s' : perm_env e m li lu -> st_type s = "pi_controller" -> st_par s = [] -> auto_current e false a s = Ok s' ->
  base_make e s' false false = Ok (BPi {| pi_p := pe_la m / (en_tau e * a) / lu * li; pi_i := pe_la m / (en_tau e * a) / lu * li / (en_tau e * (a * a)); pi_tau := en_tau e; pi_int := 0 |}).
Proof.
  intros (_ & _ & La & _ & ji & ju & jw & lw & nw & nu & Ec & Ev & _ & _ & Li & Lu & _) Ty Pa. unfold auto_current, dict_item. rewrite La, Ec, Ev. cbn [bind at_ nth_error]. rewrite Li, Lu, Ty. cbn [bind String.eqb Ascii.eqb Bool.eqb]. intros H. injection H as <-.
  unfold base_make. unfold set_default, st_get. rewrite Ty, Pa. reflexivity.
Qed.
Lemma ca_new_plain e m li lu s b c : perm_env e m li lu -> base_make e s false false = Ok b -> ca_new e (SList [s]) ["i"] = Ok c ->
  ca_ctl c = b /\ ca_exc c = None /\ ca_ref c = 0%nat /\ str_index "i" (en_names e) = Ok (ca_ref_state c).
Proof.
  intros (X & _) B. unfold ca_new. destruct (en_space e) as [low high| |]; try discriminate. rewrite X. intros H. ub H. injection H as <-. cbn [ca_ctl ca_exc ca_ref ca_ref_state].
  cbn in U. injection U as <-. cbn in U0. injection U0 as <-. cbn [existsb is_ie String.eqb Ascii.eqb Bool.eqb orb length Nat.leb py_assert bind at_ nth_error] in U9. cbn in U9. rewrite B in U9. cbn [bind] in U9. injection U9 as <-. auto.
Qed.
(** The feed forward in a permanently excited motor's environment *)
Lemma perm_feedforward e m li lu c s w : perm_env e m li lu -> ca_nominal c = en_nominal e -> ca_psi c = dict_get "psi_e" (en_mp e) -> last_of (en_volt e) = Ok (ca_u c) -> str_index "omega" (en_names e) = Ok (ca_omega c) ->
  shows e s "omega" w -> exists f, ca_feedforward c s = Ok f /\ f * lu = pe_psi m * w.
Proof.
  intros (_ & Ps & _ & P0 & ji & ju & jw & lw & nw & nu & Ec & Ev & Ni & Nw & Li & Lu & Lw & Mw & Mu & Z1 & Z2 & Z3 & Z4 & Ra) N Pc V O (j & l & J1 & J2 & J3 & J4).
  rewrite Ev in V. cbn in V. injection V as V. unfold ca_feedforward. rewrite Pc, Ps. unfold py_or. destruct (reqP (pe_psi m) 0) as [E|E]; [contradiction|]. cbn [bind]. rewrite N, <- V.
  assert (J : j = ca_omega c) by congruence. assert (J' : jw = ca_omega c) by congruence. subst j jw. rewrite J4, Mw, Mu. cbn [bind]. eexists. split; [reflexivity|].
  assert (l = lw) by congruence. subst l. replace (w / lw * nw * pe_psi m / nu * lu) with (w * pe_psi m * (nw * lu) / (lw * nu)) by (field; auto). rewrite Ra. field. auto.
Qed.
Lemma perm_ode_step m i u w d : pe_la m <> 0 -> perm_ode m [i] [u] w = Ok [d] -> d = (u - pe_psi m * w - pe_ra m * i) / pe_la m.
Proof. intros H E. unfold perm_ode in E. cbn in E. injection E as E. rewrite <- E. field. exact H. Qed.

(** One unsaturated cycle *)
Lemma ca_cycle c s r c' v p x y ff : ca_ctl c = BPi p -> ca_exc c = None -> item s (ca_ref_state c) = Ok x -> item r (ca_ref c) = Ok y -> ca_feedforward c s = Ok ff ->
  ca_control c s r = Ok (c', [v]) -> ca_low c < v < ca_high c -> v = pi_control p x y + ff /\ ca_ctl c' = BPi (pi_integrate p x y) /\ ca_exc c' = None.
Proof.
  intros Hc He Hx Hy Hf H B. destruct (ca_control_inv _ _ _ _ _ H) as (x0 & y0 & f0 & m & I1 & I2 & I3 & L & C & A & _ & P & _). assert (x0 = x) by congruence. assert (y0 = y) by congruence. assert (f0 = ff) by congruence. subst x0 y0 f0.
  cbn in A. injection A as A. rewrite Hc in L. cbn [b_control fst snd] in L. unfold limited in L.
  destruct P as (_ & _ & _ & _ & _ & _ & _ & _ & _ & _ & _ & Px). rewrite He in Px. destruct (ca_exc c') eqn:Ex'; [contradiction|].
  destruct (rleP (ca_low c) (pi_control p x y + ff)) as [G|G]; [destruct (rleP (pi_control p x y + ff) (ca_high c)) as [G'|G']|]; cbn [andb] in L.
  - cbn in L. injection L as <-. cbn in A, C. auto.
  - injection L as <-. cbn in A. rewrite A in B. pose proof (inside_clip _ _ _ B). lra.
  - injection L as <-. cbn in A. rewrite A in B. pose proof (inside_clip _ _ _ B). lra.
Qed.

Section PermLoop.
Variables (e : env) (m : perm_par) (li lu a ref : R) (s s' : stage) (c : cac) (cs : nat -> cac) (st : nat -> list R) (i w act : nat -> R).
Hypothesis Pe : perm_env e m li lu.
Hypothesis Ty : st_type s = "pi_controller".
Hypothesis Pa : st_par s = [].
Hypothesis Au : auto_current e false a s = Ok s'.
Hypothesis Nw : ca_new e (SList [s']) ["i"] = Ok c.
Hypothesis Lo : perm_loop e m lu ref c cs st i w act.
Hypothesis Ha : 0 < a.
Hypothesis Ht : 0 < en_tau e.
Hypothesis HL : 0 < pe_la m.
Definition pg : R := pe_la m / (en_tau e * a) / lu * li.
Definition ig : R := pg / (en_tau e * (a * a)).
Lemma loop_inv k : exists z, ca_ctl (cs k) = BPi {| pi_p := pg; pi_i := ig; pi_tau := en_tau e; pi_int := z |} /\ ca_exc (cs k) = None /\ ca_params c (cs k).
Proof.
  pose proof (tuned_gains e m li lu a s s' Pe Ty Pa Au) as G. destruct (ca_new_plain e m li lu s' _ c Pe G Nw) as (C1 & C2 & C3 & C4). destruct Lo as [L0 L].
  induction k as [|k (z & I1 & I2 & I3)].
  - rewrite L0. exists 0. split; [exact C1|]. split; [exact C2|apply ca_params_refl].
  - destruct (L k) as (Q & B & (j & l & J1 & J2 & J3 & J4) & Sw & _). pose proof I3 as (R1 & R2 & _ & R4 & R5 & R6 & R7 & _ & R9 & R10 & _).
    destruct (ca_control_inv _ _ _ _ _ Q) as (x & y & ff & mm & E1 & E2 & E3 & _ & _ & _ & _ & P & _). destruct (ca_cycle _ _ _ _ _ _ _ _ _ I1 I2 E1 E2 E3 Q ltac:(rewrite R9, R10; exact B)) as (_ & D1 & D2).
    eexists. split; [exact D1|]. split; [exact D2|]. eapply ca_params_trans; eassumption.
Qed.
Definition zint (k : nat) : R := match ca_ctl (cs k) with BPi p => li * pi_int p | _ => 0 end.
Lemma loop_step k : zint (S k) = zint k + (ref * li - i k) * en_tau e /\
  i (S k) = i k + en_tau e / pe_la m * (pe_la m / (en_tau e * a) * (ref * li - i k) + pe_la m / (en_tau e * a) / (en_tau e * (a * a)) * (zint k + (ref * li - i k) * en_tau e) - pe_ra m * i k).
Proof.
  pose proof (tuned_gains e m li lu a s s' Pe Ty Pa Au) as G. destruct (ca_new_plain e m li lu s' _ c Pe G Nw) as (C1 & C2 & C3 & C4). destruct (ca_new_inv _ _ _ _ Nw) as (N1 & N2 & _ & N4 & _ & N6).
  destruct (loop_inv k) as (z & I1 & I2 & I3). pose proof I3 as (R1 & R2 & _ & R4 & R5 & R6 & R7 & _ & R9 & R10 & _). destruct Lo as [L0 L]. destruct (L k) as (Q & B & (j & l & J1 & J2 & J3 & J4) & Sw & d & D1 & D2).
  destruct (perm_feedforward e m li lu (cs k) (st k) (w k) Pe ltac:(congruence) ltac:(congruence) ltac:(congruence) ltac:(congruence) Sw) as (f & F1 & F2).
  assert (Ji : item (st k) (ca_ref_state (cs k)) = Ok (i k / l)). { rewrite R2. assert (j = ca_ref_state c) by congruence. subst j. exact J4. }
  assert (Jr : item [ref] (ca_ref (cs k)) = Ok ref). { rewrite R1, C3. reflexivity. }
  assert (l = li). { destruct Pe as (_ & _ & _ & _ & ji & ju & jw & lw & nw & nu & _ & _ & Ni & _ & Li & _). congruence. } subst l.
  destruct (ca_cycle _ _ _ _ _ _ _ _ _ I1 I2 Ji Jr F1 Q ltac:(rewrite R9, R10; exact B)) as (V & D3 & _).
  assert (Zk : zint k = li * z) by (unfold zint; rewrite I1; reflexivity). assert (Zs : zint (S k) = li * (z + (ref - i k / li) * en_tau e)) by (unfold zint; rewrite D3; reflexivity).
  assert (Lu : lu <> 0). { destruct Pe as (_ & _ & _ & _ & ji & ju & jw & lw & nw & nu & _ & _ & _ & _ & _ & _ & _ & _ & _ & _ & Z2 & _). exact Z2. }
  split; [rewrite Zk, Zs; field; exact J3|].
  rewrite D2, (perm_ode_step m _ _ _ _ ltac:(lra) D1), V, Zk. rewrite Rmult_plus_distr_r, F2. unfold pi_control. cbn [pi_p pi_i pi_tau pi_int]. unfold ig, pg. field. repeat split; lra || assumption.
Qed.
Lemma perm_loop_converges : 2 * (en_tau e * pe_ra m / pe_la m) + 2 / a + 1 / (a * a * a) < 4 -> 0 < 1 / a + en_tau e * pe_ra m / pe_la m -> Un_cv i (ref * li).
Proof.
  intros S1 S2. apply (pi_converges a (en_tau e) (pe_la m) (pe_ra m) (ref * li) i zint Ha Ht HL); try assumption; intros k; apply loop_step.
Qed.
End PermLoop.

(** *** Induction motor: the decoupled axes *)
Lemma im_dq_axes m theta isd isq psi usd usq w d : im_rr m <> 0 -> im_lr m <> 0 -> im_ls m <> 0 -> im_sigma m <> 0 -> im_rs m + im_rr m * (im_lm m * im_lm m) / (im_lr m * im_lr m) <> 0 -> psi <> 0 ->
  scim_ode m [cos theta * isd - sin theta * isq; sin theta * isd + cos theta * isq; psi * cos theta; psi * sin theta; 0] [cos theta * usd - sin theta * usq; sin theta * usd + cos theta * usq] w = Ok d ->
  exists dia dib dpa dpb de, d = [dia; dib; dpa; dpb; de] /\
    let thetadot := (psi * cos theta * dpb - psi * sin theta * dpa) / (psi * psi) in
    thetadot = im_p m * w + im_rr m * im_lm m / im_lr m * isq / psi /\
    im_sigma m * im_ls m * (cos theta * dia + sin theta * dib + thetadot * isq) =
      usd - (im_rs m + im_rr m * (im_lm m * im_lm m) / (im_lr m * im_lr m)) * isd + im_lm m * im_rr m / (im_lr m * im_lr m) * psi + thetadot * im_sigma m * im_ls m * isq /\
    im_sigma m * im_ls m * (- sin theta * dia + cos theta * dib - thetadot * isd) =
      usq - (im_rs m + im_rr m * (im_lm m * im_lm m) / (im_lr m * im_lr m)) * isq - im_p m * w * im_lm m / im_lr m * psi - thetadot * im_sigma m * im_ls m * isd.
Proof.
  intros H1 H2 H3 H4 H5 H6. unfold scim_ode, im_ode, item2, im_constants. cbn [item nth_error bind map]. unfold matvec. cbn [forallb length Nat.eqb andb map dot]. intros H. injection H as <-. do 5 eexists. split; [reflexivity|]. cbv zeta.
  pose proof (sincos2 theta) as SC. unfold im_tausig, im_taur. set (sg := im_sigma m) in *. set (ls := im_ls m) in *. set (lr := im_lr m) in *. clearbody sg ls lr. set (R0 := im_rs m + im_rr m * (im_lm m * im_lm m) / (lr * lr)) in *. clearbody R0. set (z := sin theta) in *. set (co := cos theta) in *. clearbody z co.
  match goal with |- ?x = _ /\ _ => assert (T : x = im_p m * w + im_rr m * im_lm m / lr * isq / psi) end.
  { match goal with |- ?n / (psi * psi) = _ => replace n with ((z * z + co * co) * (psi * (im_p m * w * psi + im_rr m * im_lm m / lr * isq))) by (field; auto) end. rewrite SC. field. auto. }
  rewrite T. split; [reflexivity|]. set (td := im_p m * w + im_rr m * im_lm m / lr * isq / psi). clearbody td. clear T. split.
  - match goal with |- ?l = ?r => replace l with ((z * z + co * co) * (usd - R0 * isd + im_lm m * im_rr m / (lr * lr) * psi) + td * sg * ls * isq) by (field; auto) end. rewrite SC. ring.
  - match goal with |- ?l = ?r => replace l with ((z * z + co * co) * (usq - R0 * isq - im_p m * w * im_lm m / lr * psi) - td * sg * ls * isd) by (field; auto) end. rewrite SC. ring.
Qed.
