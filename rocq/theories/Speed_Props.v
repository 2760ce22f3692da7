(** C118: the tuned speed loop. *)
From Verif Require Import PyBaseFacts PyDictFacts Transform_Model Transform_Proofs Motor_Model Loads_Model Conv_Model Wrap_Model Ctl_Model Ctl_Model2 Ctl_Spec Ctl_Proofs Ctl_Proofs2 Ctl_Props Loop_Spec Loop_Proofs Loop_Proofs2 Loop_Props Speed_Spec Speed_Proofs.
Local Open Scope string_scope. Local Open Scope list_scope. Local Open Scope R_scope.

Lemma sgn_pos x : 0 < x -> sgn x = 1.
Proof. intros H. unfold sgn. destruct (rltP 0 x); [reflexivity|contradiction]. Qed.
(** At positive speeds above the linear band the load is affine; without constant part it is linear at all speeds. *)
Lemma load_affine p w : po_c p = 0 -> 0 <= po_lim p < w \/ (po_a p = 0 /\ po_lim p = 0) -> static_load p w = po_a p + po_b p * w.
Proof.
  intros Hc [H|[Ha Hl]]; unfold static_load; rewrite Hc.
  - rewrite Rabs_pos_eq by lra. destruct (rltP (po_lim p) w) as [_|N]; [|lra]. rewrite sgn_pos by lra. ring.
  - rewrite Ha, Hl. destruct (rltP 0 (Rabs w)) as [L|N]; [ring|]. assert (w = 0) as ->. { destruct (Req_dec w 0) as [E|E]; [exact E|]. exfalso. apply N. apply Rabs_pos_lt, E. } ring.
Qed.
Definition affine_at (p : poly) (w : nat -> R) : Prop := po_c p = 0 /\ forall k, 0 <= po_lim p < w k \/ (po_a p = 0 /\ po_lim p = 0).
(** The tuning turns the number [a] into the gain [q]. *)
Definition speed_q (a : R) : R := 1 / (a * a * a).
Lemma speed_q_pos a : 0 < a -> 0 < speed_q a.
Proof. intros H. apply Rdiv_lt_0_compat; [lra|repeat apply Rmult_lt_0_compat; lra]. Qed.
Lemma speed_q_small a : 1 < a -> speed_q a < 1.
Proof. intros H. unfold speed_q. assert (1 < a * a) by nra. assert (1 < a * a * a) by nra. unfold Rdiv. rewrite Rmult_1_l, <- Rinv_1. apply Rinv_lt_contravar; lra. Qed.
Lemma speed_q_big a : 0 < a <= 1 -> 1 <= speed_q a.
Proof. intros H. unfold speed_q. assert (0 < a * a * a) by (repeat apply Rmult_lt_0_compat; lra). assert (a * a <= 1) by nra. assert (a * a * a <= 1) by nra. unfold Rdiv. rewrite Rmult_1_l, <- Rinv_1 at 1. apply Rinv_le_contravar; lra. Qed.

Lemma speed_error {O} (op : ops O) e id margin a m p r c cs s w t : tuned_speed op e id margin a c -> motor_type id = Ok m -> (forall l, read l_reader m e = Ok l -> Forall (fun x => 0 < x) l) -> 0 < ce_tau e -> 0 < a -> 0 < ce_j e ->
  po_jtotal p = ce_j e -> affine_at p w -> speed_loop e r p c cs s w t ->
  forall k, w (Datatypes.S (Datatypes.S k)) - r = (2 - ce_tau e * po_b p / ce_j e - speed_q a) * (w (Datatypes.S k) - r) - (1 - ce_tau e * po_b p / ce_j e - speed_q a + speed_q a * speed_q a) * (w k - r).
Proof.
  intros Hc Hm Hl Ht Ha Hj Hp [A1 A2] Cl k. destruct (tuned_ssingle op e id margin a c m Hc Hm Hl Ht Ha Hj) as (ji & lo & hi & Sg & Lk & Eji & Rg).
  apply (pi_recurrence (Datatypes.S (Datatypes.S k)) (speed_q a) (ce_tau e) (ce_j e) (po_b p) (po_a p) r w Ht Hj); [|apply Nat.lt_succ_diag_r]. intros j Hk.
  exact (speed_linear _ e r p c cs s w t _ _ ji lo hi (po_a p) (po_b p) (Cl _) Sg Lk Eji Rg Hp Hj (fun i _ => load_affine p (w i) A1 (A2 i)) j Hk).
Qed.
(** The speed reaches a constant reference from every start, for every motor whose tuning succeeds. *)
Theorem speed_loop_converges :
  forall O (op : ops O) e id margin a m p r c cs s w t, tuned_speed op e id margin a c -> motor_type id = Ok m ->
  (forall l, read l_reader m e = Ok l -> Forall (fun x => 0 < x) l) -> 0 < ce_tau e -> 1 < a -> 0 < ce_j e ->
  po_jtotal p = ce_j e -> 0 <= po_b p -> ce_tau e * po_b p <= ce_j e -> affine_at p w -> speed_loop e r p c cs s w t -> Un_cv w r.
Proof.
  intros O op e id margin a m p r c cs s w t Hc Hm Hl Ht Ha Hj Hp B1 B2 Hf Cl. assert (Ha0 : 0 < a) by lra. pose proof (speed_error op e id margin a m p r c cs s w t Hc Hm Hl Ht Ha0 Hj Hp Hf Cl) as Rc.
  pose proof (speed_q_pos a Ha0) as Q1. pose proof (speed_q_small a Ha) as Q2. apply Un_cv_shift.
  assert (R1 : 0 <= ce_tau e * po_b p / ce_j e). { apply Rmult_le_pos; [apply Rmult_le_pos; lra|apply Rlt_le, Rinv_0_lt_compat, Hj]. }
  assert (R2 : ce_tau e * po_b p / ce_j e <= 1). { apply Rmult_le_reg_r with (ce_j e); [exact Hj|]. unfold Rdiv. rewrite Rmult_assoc, Rinv_l by lra. lra. }
  assert (Q3 : speed_q a * speed_q a < speed_q a) by nra. assert (Q4 : 0 < speed_q a * speed_q a) by nra.
  apply (recurrence_converges (2 - ce_tau e * po_b p / ce_j e - speed_q a) (1 - ce_tau e * po_b p / ce_j e - speed_q a + speed_q a * speed_q a)); [lra|split; lra|exact Rc].
Qed.
Print Assumptions speed_loop_converges.
(** Without friction the loop converges exactly for [a > 1], unless it starts in the steady state; for [a = 1] it
    oscillates with a period of six sampling times. *)
Lemma form_step q x y : let t := 2 - q in let d := 1 - q + q * q in let z := t * y - d * x in z * z - t * z * y + d * (y * y) = d * (y * y - t * y * x + d * (x * x)).
Proof. cbv zeta. ring. Qed.
Lemma form_pos q x y : 1 <= q -> y * y - (2 - q) * y * x + (1 - q + q * q) * (x * x) <= 0 -> x = 0 /\ y = 0.
Proof.
  intros Hq H. assert (E : y * y - (2 - q) * y * x + (1 - q + q * q) * (x * x) = (y - (2 - q) / 2 * x) * (y - (2 - q) / 2 * x) + 3 / 4 * (q * q) * (x * x)) by field. rewrite E in H.
  pose proof (Rle_0_sqr (y - (2 - q) / 2 * x)) as P1. unfold Rsqr in P1. pose proof (Rle_0_sqr x) as P2. unfold Rsqr in P2. assert (Q : 1 <= q * q) by nra. assert (P3 : x * x <= q * q * (x * x)) by (rewrite <- (Rmult_1_l (x * x)) at 1; apply Rmult_le_compat_r; lra).
  assert (X : x * x = 0) by lra. assert (x = 0) as -> by (destruct (Rmult_integral _ _ X); assumption). split; [reflexivity|]. rewrite Rmult_0_r, Rminus_0_r in H. assert (Y : y * y = 0) by (pose proof (Rle_0_sqr y) as P; unfold Rsqr in P; lra). destruct (Rmult_integral _ _ Y); assumption.
Qed.
Lemma grows q (E : nat -> R) : 1 <= q -> (forall k, E (Datatypes.S (Datatypes.S k)) = (2 - q) * E (Datatypes.S k) - (1 - q + q * q) * E k) -> Un_cv E 0 -> forall k, E k = 0.
Proof.
  intros Hq H Cv. set (V := fun k => E (Datatypes.S k) * E (Datatypes.S k) - (2 - q) * E (Datatypes.S k) * E k + (1 - q + q * q) * (E k * E k)).
  assert (Hd : 1 <= 1 - q + q * q) by nra.
  assert (HV : forall k, V (Datatypes.S k) = (1 - q + q * q) * V k). { intros k. unfold V. rewrite (H k). apply form_step. }
  assert (P : forall k, 0 <= V k). { intros k. destruct (Rle_lt_dec 0 (V k)) as [Z|Z]; [exact Z|]. destruct (form_pos q (E k) (E (Datatypes.S k)) Hq (Rlt_le _ _ Z)) as [X Y]. unfold V. rewrite X, Y. lra. }
  assert (G : forall k, V O <= V k). { induction k as [|k IH]; [lra|]. rewrite HV. specialize (P k). nra. }
  assert (C2 : Un_cv V 0).
  { assert (Cs : Un_cv (fun k => E (Datatypes.S k)) 0). { intros eps He. destruct (Cv eps He) as [N HN]. exists N. intros n Hn. apply HN. apply le_S. exact Hn. }
    replace 0 with (0 * 0 - (2 - q) * 0 * 0 + (1 - q + q * q) * (0 * 0)) by ring. unfold V. apply CV_plus; [apply CV_minus; [apply CV_mult; exact Cs|apply CV_mult; [apply CV_mult; [|exact Cs]|exact Cv]]|apply CV_mult; [|apply CV_mult; exact Cv]]; intros eps He; exists O; intros n _; unfold R_dist; rewrite Rminus_diag_eq by reflexivity; rewrite Rabs_R0; exact He. }
  assert (V0 : V O <= 0). { destruct (Rle_lt_dec (V O) 0) as [Z|Z]; [exact Z|]. exfalso. destruct (C2 (V O) Z) as [N HN]. specialize (HN N (le_n _)). unfold R_dist in HN. rewrite Rminus_0_r, Rabs_pos_eq in HN by apply P. specialize (G N). lra. }
  destruct (form_pos q (E O) (E 1%nat) Hq V0) as [X Y]. assert (A : forall k, E k = 0 /\ E (Datatypes.S k) = 0). { induction k as [|k [I1 I2]]; [split; assumption|]. split; [exact I2|]. rewrite (H k), I1, I2. ring. } intros k. apply A.
Qed.
Theorem speed_loop_converges_iff :
  forall O (op : ops O) e id margin a m p r c cs s w t, tuned_speed op e id margin a c -> motor_type id = Ok m ->
  (forall l, read l_reader m e = Ok l -> Forall (fun x => 0 < x) l) -> 0 < ce_tau e -> 0 < a -> 0 < ce_j e ->
  po_jtotal p = ce_j e -> po_b p = 0 -> affine_at p w -> speed_loop e r p c cs s w t ->
  (Un_cv w r <-> 1 < a \/ forall k, w k = r) /\ (a = 1 -> forall k, w (k + 6)%nat = w k).
Proof.
  intros O op e id margin a m p r c cs s w t Hc Hm Hl Ht Ha Hj Hp B Hf Cl. pose proof (speed_error op e id margin a m p r c cs s w t Hc Hm Hl Ht Ha Hj Hp Hf Cl) as Rc. rewrite B in Rc. replace (ce_tau e * 0 / ce_j e) with 0 in Rc by (field; lra). rewrite !Rminus_0_r in Rc.
  split; [split|].
  - intros Cv. destruct (Rlt_le_dec 1 a) as [H1|H1]; [left; exact H1|right]. intros k. apply Rminus_diag_uniq. refine (grows (speed_q a) (fun k => w k - r) (speed_q_big a (conj Ha H1)) Rc _ k). intros eps He. destruct (Cv eps He) as [N HN]. exists N. intros n Hn. specialize (HN n Hn). unfold R_dist in *. rewrite Rminus_0_r. exact HN.
  - intros [H1|H1]; [apply (speed_loop_converges O op e id margin a m p r c cs s w t); try assumption; rewrite B; lra|]. intros eps He. exists 0%nat. intros n _. unfold R_dist. rewrite (H1 n), Rminus_diag_eq, Rabs_R0 by reflexivity. exact He.
  - intros H1 k. subst a. unfold speed_q in Rc. rewrite !Rmult_1_r in Rc. replace (1 / 1) with 1 in Rc by field.
    pose proof (Rc k) as R0. pose proof (Rc (1 + k)%nat) as R1. pose proof (Rc (2 + k)%nat) as R2. pose proof (Rc (3 + k)%nat) as R3. pose proof (Rc (4 + k)%nat) as R4. cbn [Nat.add] in *. replace (k + 6)%nat with (6 + k)%nat by apply Nat.add_comm. cbn [Nat.add]. lra.
Qed.
Print Assumptions speed_loop_converges_iff.

(** ** Such loops exist *)
Fixpoint sctl_run {O} (c : sctl O) (s : nat -> list R) (r : R) (k : nat) : sctl O := match k with O => c | Datatypes.S j => fst (speed_control (sctl_run c s r j) (s j) [r]) end.
(** Frictionless load without constant part. *)
Theorem speed_loop_exists :
  forall a tau J r w0, 0 < tau -> 1 <= a -> 0 < J ->
  exists U, forall O (op : ops O) e id margin m p c obs, tuned_speed op e id margin a c -> motor_type id = Ok m ->
  (forall l, read l_reader m e = Ok l -> Forall (fun x => 0 < x) l) -> ce_tau e = tau -> ce_j e = J -> po_jtotal p = J ->
  po_a p = 0 -> po_b p = 0 -> po_c p = 0 -> po_lim p = 0 ->
  (forall y, Rabs y <= U -> in_torque_range e y) -> (forall k x, observed e (obs k x) "omega" x) ->
  exists cs w t, w 0%nat = w0 /\ speed_loop e r p c cs (fun k => obs k (w k)) w t.
Proof.
  intros a tau J r w0 Ht Ha1 Hj. assert (Ha : 0 < a) by lra. set (q := speed_q a). set (kp := J / tau * q). set (ki := J / tau * q * (q / tau)).
  set (w := fun k => fst (course tau J kp ki 0 0 r w0 k)). set (en := fun k => w k - r).
  assert (Hi : forall k, w (Datatypes.S k) = w k + tau / J * (kp * (r - w k) + ki * zsum tau r w k - 0 * w k - 0)) by (intros k; apply course_i).
  assert (He : forall k, en (Datatypes.S (Datatypes.S k)) = (2 - q) * en (Datatypes.S k) - (1 - q + q * q) * en k).
  { intros k. pose proof (pi_recurrence (Datatypes.S (Datatypes.S k)) q tau J 0 0 r w Ht Hj (fun j _ => Hi j) k (Nat.lt_succ_diag_r _)) as Rc. replace (tau * 0 / J) with 0 in Rc by (field; lra). rewrite !Rminus_0_r in Rc. exact Rc. }
  assert (HK : exists K, forall k, Rabs (en k) <= K).
  { assert (Z : 1 < a \/ a = 1) by lra. destruct Z as [Z|Z].
    - pose proof (speed_q_pos a Ha) as Q1. pose proof (speed_q_small a Z) as Q2. fold q in Q1, Q2. assert (Q3 : q * q < q) by nra. assert (Q4 : 0 < q * q) by nra.
      exists (sqrt (jm (2 - q) (1 - q + q * q) / jg (2 - q) (1 - q + q * q) * (en O * en O + en 1%nat * en 1%nat))). intros k. pose proof (recurrence_bound (2 - q) (1 - q + q * q) ltac:(lra) ltac:(split; lra) en He k) as Bd. apply sq_abs_le; [|exact Bd]. pose proof (Rle_0_sqr (en k)) as Y. unfold Rsqr in Y. lra.
    - assert (Eq : q = 1) by (unfold q, speed_q; rewrite Z; field). rewrite Eq in He. set (K := Rabs (en O) + Rabs (en 1%nat)). exists K. intros k.
      assert (A : forall k, Rabs (en k) <= K /\ Rabs (en (Datatypes.S k)) <= K /\ Rabs (en (Datatypes.S k) - en k) <= K).
      { clear k. induction k as [|k (I1 & I2 & I3)]; [unfold K; pose proof (Rabs_pos (en O)); pose proof (Rabs_pos (en 1%nat)); repeat split; try lra; apply Rle_trans with (1 := Rabs_triang _ _); rewrite Rabs_Ropp; lra|]. rewrite (He k). replace ((2 - 1) * en (Datatypes.S k) - (1 - 1 + 1 * 1) * en k) with (en (Datatypes.S k) - en k) by ring. repeat split; try assumption. replace (en (Datatypes.S k) - en k - en (Datatypes.S k)) with (- en k) by ring. rewrite Rabs_Ropp. exact I1. }
      apply A. }
  destruct HK as (K & HK). exists (J / tau * (2 * K)). intros O op e id margin m p c obs Hc Hm Hl Et Ej Hp P1 P2 P3 P4 HU Hobs. subst tau J.
  destruct (tuned_ssingle op e id margin a c m Hc Hm Hl Ht Ha Hj) as (ji & lo & hi & Sg & Lk & Eji & Rg). change (1 / (a * a * a)) with q in Sg. change (ce_j e / ce_tau e * q) with kp in Sg. change (kp * (q / ce_tau e)) with ki in Sg.
  set (t := fun k => kp * (r - w k) + ki * zsum (ce_tau e) r w k).
  assert (HB : forall k, in_torque_range e (t k)).
  { intros k. apply HU. replace (t k) with (ce_j e / ce_tau e * (en (Datatypes.S k) - en k)) by (unfold en; rewrite (Hi k); unfold t; field; split; lra). rewrite Rabs_mult, (Rabs_pos_eq (ce_j e / ce_tau e)) by (apply Rlt_le, Rdiv_lt_0_compat; lra). apply Rmult_le_compat_l; [apply Rlt_le, Rdiv_lt_0_compat; lra|]. unfold Rminus. apply Rle_trans with (1 := Rabs_triang _ _). rewrite Rabs_Ropp. pose proof (HK k). pose proof (HK (Datatypes.S k)). lra. }
  set (s := fun k => obs k (w k)). set (cs := sctl_run c s r).
  assert (Hoi : forall k, item (s k) ji = Ok (w k)). { intros k. destruct (Hobs k (w k)) as (j & E1 & E2). rewrite Eji in E1. injection E1 as <-. exact E2. }
  assert (Hstep : forall k, slike c (zsum (ce_tau e) r w k) (cs k) -> exists c2, speed_control (cs k) (s k) [r] = (c2, Ok [t k]) /\ slike c (zsum (ce_tau e) r w (Datatypes.S k)) c2).
  { intros k IH. destruct (speed_step _ _ _ _ _ _ _ _ _ _ r _ Sg IH (Hoi k)) as (c2 & E2 & L2). pose proof (proj1 (Rg _) (HB k)) as Hr. exists c2. fold (t k) in E2, L2. rewrite (Rmax_left (t k) lo), (Rmin_left (t k) hi) in E2 by lra. split; [exact E2|]. apply L2. lra. }
  assert (A : forall k, slike c (zsum (ce_tau e) r w k) (cs k)). { induction k as [|k IH]; [exact Lk|]. destruct (Hstep k IH) as (c2 & E2 & L2). unfold cs. cbn [sctl_run]. fold cs. rewrite E2. exact L2. }
  exists cs, w, t. split; [reflexivity|]. intros n. split; [reflexivity| |intros k _; apply HB|intros k _; apply Hobs|].
  - intros k _. destruct (Hstep k (A k)) as (c2 & E2 & L2). unfold cs at 2. cbn [sctl_run]. fold cs. fold (s k). rewrite E2. reflexivity.
  - intros k _. eexists. split; [reflexivity|]. rewrite (Hi k), (load_affine p (w k) P3 (or_intror (conj P1 P4))), P1, P2, Hp. fold (t k). unfold t. field. lra.
Qed.
Print Assumptions speed_loop_exists.
(** A permanently excited motor with a torque range of [v] Nm. *)
Definition speed_env (v : R) : cenv :=
  {| ce_names := ["omega"; "torque"; "i"; "u"; "u_sup"]; ce_limits := [400; v; 100; 60; 60]; ce_low := [-1; -1; -1; -1; 0]; ce_high := [1; 1; 1; 1; 1]; ce_refs := ["omega"];
     ce_tau := 1 / 10000; ce_par := [("r_a", 16 / 1000); ("l_a", 19 / 1000000); ("psi_e", 165 / 1000)]; ce_j := 1 / 40; ce_act := SBox 1; ce_b6 := false; ce_dead := Some false |}.
Definition free_load : poly := {| po_a := 0; po_b := 0; po_c := 0; po_jload := 0; po_jtotal := 1 / 40; po_lim := 0; po_lin := 0 |}.
Definition unit_ops : ops unit := {| o_call := fun o s r => (o, Ok r); o_tune := fun o e id m => Ok o; o_reset := fun o => o |}.
Example speed_loop_example : forall a, 1 <= a -> exists v c cs s w t, tuned_speed unit_ops (speed_env v) "Cont-SC-PermExDc-v0" 0 a c /\ w 0%nat = 0 /\ speed_loop (speed_env v) 100 free_load c cs s w t /\ (Un_cv w 100 <-> 1 < a).
Proof.
  intros a Ha. destruct (speed_loop_exists a (1 / 10000) (1 / 40) 100 0 ltac:(lra) Ha ltac:(lra)) as (U & H). set (V := U + 1).
  assert (HP : forall l, read l_reader "PermExDc" (speed_env V) = Ok l -> Forall (fun x => 0 < x) l) by (intros l Hl; injection Hl as <-; repeat constructor; lra).
  assert (Hc : exists c, tuned_speed unit_ops (speed_env V) "Cont-SC-PermExDc-v0" 0 a c). { eexists. exists tt. do 4 eexists. exists true. split; [reflexivity|]. split; [reflexivity|]. split; [reflexivity|]. split; [reflexivity|]. reflexivity. } destruct Hc as (c & Hc).
  destruct (H unit unit_ops (speed_env V) "Cont-SC-PermExDc-v0" 0 "PermExDc" free_load c (fun k x => [x; 0; 0; 0; 60]) Hc eq_refl HP eq_refl eq_refl eq_refl eq_refl eq_refl eq_refl eq_refl) as (cs & w & t & Hw & Cl).
  - intros y Hy j Hj. injection Hj as <-. cbn. unfold V. pose proof (Rle_abs y) as Y1. pose proof (Rle_abs (- y)) as Y2. rewrite Rabs_Ropp in Y2. lra.
  - intros k x. exists O. split; reflexivity.
  - exists V, c, cs, (fun k => [w k; 0; 0; 0; 60]), w, t. split; [exact Hc|]. split; [exact Hw|]. split; [exact Cl|].
    destruct (speed_loop_converges_iff unit unit_ops (speed_env V) "Cont-SC-PermExDc-v0" 0 a "PermExDc" free_load 100 c cs (fun k => [w k; 0; 0; 0; 60]) w t Hc eq_refl HP ltac:(cbn; lra) ltac:(lra) ltac:(cbn; lra) eq_refl eq_refl ltac:(split; [reflexivity|intros k; right; split; reflexivity]) Cl) as [[I1 I2] _]. split; [|auto]. intros Cv. destruct (I1 Cv) as [Z|Z]; [exact Z|]. specialize (Z 0%nat). lra.
Qed.
