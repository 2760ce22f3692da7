(** Proofs about the three phase systems and about the system equation. *)
From Verif Require Import PyBaseFacts PyDictFacts Conv_Model Conv_Spec Conv_Proofs Conv_Proofs2 Solver_Model Solver_Spec Solver_Proofs Supply_Model
  Transform_Model Transform_Proofs Motor_Model Motor_Spec Motor_Proofs Loads_Model PhysSys_Model PhysSys_Spec PhysSys_Proofs PhysSys_Proofs2.

Lemma item_nth y i a : item y i = Ok a -> nth_error y i = Some a.
Proof. unfold item. destruct (nth_error y i); congruence. Qed.
Lemma nth_item y i a : nth_error y i = Some a -> item y i = Ok a.
Proof. unfold item. now intros ->. Qed.
Lemma select_len {A} idx (l r : list A) : select idx l = Ok r -> length r = length idx.
Proof. intros H. apply (select_inv _ _ _ H). Qed.
Lemma matvec_len M v r : matvec M v = Ok r -> length r = length M.
Proof. unfold matvec. destruct (forallb _ M); [|discriminate]. intros E. injection E as <-. apply map_length. Qed.
Lemma t_23_len u d : t_23 u = Ok d -> length u = 3%nat /\ length d = 2%nat.
Proof.
  intros H. split; [|apply (matvec_len _ _ _ H)]. unfold t_23, matvec, t23_matrix in H. cbn [forallb length] in H.
  destruct u as [|? [|? [|? [|? u]]]]; cbn in H; try discriminate. reflexivity.
Qed.
Lemma t_32_len u d : t_32 u = Ok d -> length u = 2%nat /\ length d = 3%nat.
Proof.
  intros H. split; [|apply (matvec_len _ _ _ H)]. unfold t_32, matvec, t32_matrix in H. cbn [forallb length] in H.
  destruct u as [|? [|? [|? u]]]; cbn in H; try discriminate. reflexivity.
Qed.
Lemma q_len u e d : q u e = Ok d -> length d = 2%nat.
Proof. unfold q. destruct (item u 0); cbn; [|discriminate]. destruct (item u 1); cbn; [|discriminate]. intros E. injection E as <-. reflexivity. Qed.
Lemma abc_to_dq_len u e d : abc_to_dq u e false = Ok d -> length u = 3%nat /\ length d = 2%nat.
Proof.
  unfold abc_to_dq. destruct (t_23 u) as [ab|] eqn:E; cbn [bind]; [|discriminate]. intros H.
  split; [apply (t_23_len _ _ E)|]. unfold q_inv in H. apply (q_len _ _ _ H).
Qed.
Lemma dq_to_abc_len u e d : dq_to_abc u e false = Ok d -> length d = 3%nat.
Proof.
  unfold dq_to_abc. destruct (q u (el_angle e false)) as [ab|] eqn:E; cbn [bind]; [|discriminate]. intros H. apply (t_32_len _ _ H).
Qed.
Lemma abc_to_alphabeta_len u d : abc_to_alphabeta u = Ok d -> length u = 3%nat /\ length d = 2%nat.
Proof. apply t_23_len. Qed.

(** Transformations that depend on the angle only through its sine and cosine. *)
Lemma dq_to_abc_angle u a b : same_angle a b -> dq_to_abc u a false = dq_to_abc u b false.
Proof. intros H. destruct (same_angle_trig a b H) as [Hc Hs]. unfold dq_to_abc, el_angle, q. now rewrite Hc, Hs. Qed.
(** The same current seen in abc: the angles agree or there is no current. *)
Lemma dq_to_abc_inj d x a b : dq_to_abc [d; x] a false = dq_to_abc [d; x] b false -> same_angle a b \/ (d = 0 /\ x = 0).
Proof.
  unfold dq_to_abc, el_angle. rewrite !q_val. cbn [bind]. rewrite !t_32_val. intros H. injection H as H1 H2 H3.
  set (xa := cos a * d - sin a * x) in *. set (ya := sin a * d + cos a * x) in *.
  set (xb := cos b * d - sin b * x) in *. set (yb := sin b * d + cos b * x) in *.
  assert (Hy : ya = yb). { pose proof sqrt3. assert (0 < sqrt 3) by (apply sqrt_lt_R0; lra). assert (sqrt 3 / 2 * (ya - yb) = 0) by lra.
    destruct (Rmult_integral _ _ H4); lra. }
  destruct (Req_dec d 0) as [Hd|Hd], (Req_dec x 0) as [Hx|Hx]; [right; auto| | |]; left; apply cos_sin_same.
  all: unfold xa, xb, ya, yb in *; clear H2 H3.
  all: assert (Hn : 0 < d * d + x * x) by nra.
  all: assert (E1 : (cos a - cos b) * (d * d + x * x) = 0) by (transitivity (d * ((cos a * d - sin a * x) - (cos b * d - sin b * x)) + x * ((sin a * d + cos a * x) - (sin b * d + cos b * x))); [ring|rewrite H1, Hy; ring]).
  all: assert (E2 : (sin a - sin b) * (d * d + x * x) = 0) by (transitivity (d * ((sin a * d + cos a * x) - (sin b * d + cos b * x)) - x * ((cos a * d - sin a * x) - (cos b * d - sin b * x))); [ring|rewrite H1, Hy; ring]).
  all: destruct (Rmult_integral _ _ E1), (Rmult_integral _ _ E2); lra.
Qed.

(** ** The system equation *)
Lemma select_tail {A} (ms : list A) w : select (seq 1 (length ms)) (w :: ms) = Ok ms.
Proof.
  assert (H : forall pre ms : list A, select (seq (length pre) (length ms)) (pre ++ ms) = Ok ms).
  { clear. intros pre ms. revert pre. induction ms as [|a ms IH]; intros pre; cbn [length seq select]; [reflexivity|].
    rewrite nth_error_app2, Nat.sub_diag by lia. cbn [nth_error]. specialize (IH (pre ++ [a])).
    rewrite app_length, <- app_assoc in IH. cbn [length app] in IH. replace (length pre + 1)%nat with (S (length pre)) in IH by lia.
    now rewrite IH. }
  apply (H [w] ms).
Qed.
Lemma system_equation_1 {U} ml (mo : motor U) (u : U) t w ms : ml_n ml = 1%nat -> ml_omega ml = 0%nat -> length ms = mo_n mo ->
  system_equation ml mo u t (w :: ms) =
  (do md <- mo_ode mo ms u w; do tq <- mo_torque mo ms; do ld <- ml_ode ml t [w] tq; Ok (ld ++ md)).
Proof.
  intros H1 H2 H3. unfold system_equation, derivatives, motor_idx, load_idx. rewrite H1, H2, <- H3, select_tail. cbn [bind item nth_error select seq].
  destruct (mo_ode mo ms u w); cbn [bind]; [|reflexivity]. destruct (mo_torque mo ms); cbn [bind]; [|reflexivity].
  destruct (ml_ode ml t [w] a0); reflexivity.
Qed.

(** Placeholder. *)
Definition cache_ok (nl nm : nat) (cache : option (list R * nat)) : Prop :=
  match cache with None => True | Some (arr, n) => n = nl /\ length arr = (nl + nm)%nat end.
Lemma placeholder_step {U} (PP : U -> Prop) m ml mo cache : load_total ml -> motor_total PP m mo -> cache_ok (ml_n ml) (mo_n mo) cache ->
  forall u t y, PP u -> length y = (ml_n ml + mo_n mo)%nat ->
  snd (system_equation_ph ml mo cache u t y) = system_equation ml mo u t y /\
  cache_ok (ml_n ml) (mo_n mo) (fst (system_equation_ph ml mo cache u t y)).
Proof.
  intros (Hw & Hl) (Ho & Ht & _) Hc u t y Hu Hy. unfold system_equation_ph, system_equation, derivatives, motor_idx, load_idx.
  destruct (select_seq y (mo_n mo) (ml_n ml)) as (ms & Ems & Hms); [lia|]. rewrite Ems. cbn [bind].
  destruct (item_total y (ml_omega ml)) as (w & Ew); [lia|]. rewrite Ew. cbn [bind].
  destruct (Ho ms u w Hms Hu) as (md & Emd & Hmd). rewrite Emd. cbn [bind]. destruct (Ht ms Hms) as (tq & Etq). rewrite Etq. cbn [bind].
  destruct (select_seq y (ml_n ml) 0) as (ls & Els & Hls); [lia|]. rewrite Els. cbn [bind].
  destruct (Hl t ls tq Hls) as (ld & Eld & Hld). rewrite Eld. cbn [bind fst snd].
  destruct cache as [[arr n]|]; cbn [cache_ok] in Hc.
  - destruct Hc as [-> Harr]. rewrite Hld, Nat.eqb_refl. cbn [bind]. rewrite Emd. cbn [bind]. rewrite Hmd, Harr. replace (ml_n ml + mo_n mo - ml_n ml)%nat with (mo_n mo) by lia.
    rewrite Nat.eqb_refl. cbn. split; [reflexivity|]. split; [reflexivity|]. rewrite app_length. lia.
  - cbn. split; [reflexivity|]. rewrite app_length. auto.
Qed.

(** ** Synchronous machines: the observation of a step *)
Section SyncOut.
Context {C S A : Type} (cv : conv_if C A) (sp : supply_if S) (f : rhs (list R)) (tau : R) (ml : mload) (mo : motor (list R)).
Context (act : R * list R -> A -> res A) (limits : list lim).
Notation sim := (simulate cv sp f tau (sync_view ml mo) snd sync_volt sync_volt act (sync_out ml mo) limits).
Lemma sync_simulate_inv a x x' o : sim a x = (x', Ok o) ->
  exists (segs : list (segment C S (list R))) (sl : segment C S (list R)) y mech tq iabc idq u udq us eps_old eps,
    (exists y0 c' v0 a' ts, eu_y (sy_e x) = Some y0 /\ tiles (eu_t (sy_e x)) y0 c' (sy_s x) segs (sg_from sl) (sg_y0 sl) (sg_c0 sl) (sg_s0 sl) /\
       sync_view ml mo y0 = Ok v0 /\ act v0 a = Ok a' /\ cv_set_action cv (sy_c x) a' (sy_t x) = (c', Ok ts) /\ map sg_to segs = removelast ts /\
       Forall (segment_ok cv sp f (eu_n (sy_e x)) (sy_t x) (sync_view ml mo) snd sync_volt) segs) /\
    segment_ok cv sp f (eu_n (sy_e x)) (sy_t x) (sync_view ml mo) snd sync_volt sl /\
    sg_to sl = sy_t x + tau /\ sg_par sl = udq /\ sg_sup sl = us /\ sg_y1 sl = y /\ u = scale_voltages (sg_conv sl) us /\
    eu_y (sy_e x') = Some y /\ nth_error (sg_y0 sl) (eps_idx ml mo) = Some eps_old /\ nth_error y (eps_idx ml mo) = Some eps /\
    select (load_idx ml) y = Ok mech /\ select (cur_idx ml mo) y = Ok idq /\ dq_to_abc idq eps_old false = Ok iabc /\
    abc_to_dq u eps_old false = Ok udq /\
    (exists ms, select (motor_idx ml mo) y = Ok ms /\ mo_torque mo ms = Ok tq) /\
    length mech = ml_n ml /\ length iabc = 3%nat /\ length idq = mo_nc mo /\ length u = 3%nat /\ length udq = 2%nat /\
    sy_state x' = mech ++ [tq] ++ iabc ++ idq ++ u ++ udq ++ [wrap_angle eps] ++ us /\ np_div (sy_state x') limits = Ok o.
Proof.
  intros H. destruct (simulate_inv _ _ _ _ _ _ _ _ _ _ _ _ _ _ _ H)
    as (y0 & v0 & a' & c' & ts & vl & iv & y1 & y2 & segs & sl & st & H1 & H2 & H3 & H4 & H5 & H6 & H7 & H8 & H9 & H10 & H11 & H12 & H13 & H14 & H15 & H16 & H17 & H18 & H19 & H20 & H21 & H22 & H23 & H24 & H25).
  unfold sync_out in H14. rewrite H13 in H14. cbn [iv_u iv_sup iv_par iv_y] in H14.
  destruct (select (motor_idx ml mo) y2) as [ms|] eqn:E1; cbn [bind] in H14; [|discriminate].
  destruct (mo_torque mo ms) as [tq|] eqn:E2; cbn [bind] in H14; [|discriminate].
  destruct (select (load_idx ml) y2) as [mech|] eqn:E3; cbn [bind] in H14; [|discriminate].
  destruct (select (cur_idx ml mo) y2) as [idq|] eqn:E4; cbn [bind] in H14; [|discriminate].
  destruct (dq_to_abc idq (fst vl) false) as [iabc|] eqn:E5; cbn [bind] in H14; [|discriminate].
  destruct (item y2 (eps_idx ml mo)) as [eps|] eqn:E6; cbn [bind] in H14; [|discriminate]. injection H14 as Hst.
  pose proof H11 as (v & isup & K1 & K2 & K3 & K4 & K5 & K6). rewrite H8, H12 in K1. injection K1 as <-.
  unfold sync_view in H12. destruct (item y1 (eps_idx ml mo)) as [eo|] eqn:E7; cbn [bind] in H12; [|discriminate].
  assert (Heo : fst vl = eo).
  { destruct (select (cur_idx ml mo) y1); cbn [bind] in H12; [|discriminate]. destruct (mo_i_in mo a0); cbn [bind] in H12; [|discriminate].
    destruct (dq_to_abc a1 eo false); cbn [bind] in H12; [|discriminate]. injection H12 as <-. reflexivity. }
  unfold sync_volt in K5. rewrite Heo in K5, E5. destruct (abc_to_dq_len _ _ _ K5) as [L1 L2].
  exists segs, sl, y2, mech, tq, iabc, idq, (scale_voltages (sg_conv sl) (sg_sup sl)), (sg_par sl), (sg_sup sl), eo, eps.
  split. { exists y0, c', v0, a', ts. split; [exact H1|]. rewrite H8. auto 10. }
  split; [exact H11|]. split; [exact H10|]. split; [reflexivity|]. split; [reflexivity|]. split; [exact H9|]. split; [reflexivity|]. split; [exact H16|].
  split; [rewrite H8; now apply item_nth|]. split; [now apply item_nth|]. split; [exact E3|]. split; [exact E4|]. split; [exact E5|]. split; [exact K5|].
  split; [eauto|]. split; [rewrite (select_len _ _ _ E3); apply seq_length|]. split; [apply (dq_to_abc_len _ _ _ E5)|].
  split; [rewrite (select_len _ _ _ E4); apply seq_length|]. split; [exact L1|]. split; [exact L2|].
  rewrite H21. split; [symmetry; exact Hst|exact H15].
Qed.
End SyncOut.
