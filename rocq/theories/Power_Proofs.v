From Verif Require Import PyBase PyBaseFacts Conv_Spec Solver_Model Transform_Model Transform_Proofs Transform_Props Motor_Model Motor_Spec Motor_Proofs Motor_Props
  Loads_Model PhysSys_Model Power_Spec.

Lemma select_tl {A} (a : A) l : select (seq 1 (length l)) (a :: l) = Ok l.
Proof.
  assert (G : forall l pre : list A, select (seq (length pre) (length l)) (pre ++ l) = Ok l).
  { clear. induction l as [|x l IH]; intros pre; [reflexivity|]. cbn [length seq select].
    rewrite nth_error_app2, Nat.sub_diag by lia. cbn [nth_error].
    specialize (IH (pre ++ [x])). rewrite <- app_assoc, app_length in IH. cbn [app length] in IH.
    replace (length pre + 1)%nat with (S (length pre)) in IH by lia. now rewrite IH. }
  exact (G l [a]).
Qed.

(** From the balance of the motor to the balance of the drive. *)
Lemma drive_of_motor {U V} p (mo : motor U) nu (view : list R -> res V) cur volt energy loss adm input :
  po_jtotal p <> 0 ->
  energy_balance (mo_n mo) adm (mo_ode mo) (mo_torque mo) energy input loss ->
  (forall w ms u v q, length ms = mo_n mo -> length u = nu -> view (w :: ms) = Ok v -> volt v u = Ok q ->
     adm q /\ length (cur v) = nu /\ input ms q = power u (cur v)) ->
  drive_balance p mo nu view cur volt energy loss.
Proof.
  intros Hj HB HP y u t v q Hy Hu Hv Hq (d & Hd & Ld & D).
  pose proof (Hy t) as Hyt. destruct (y t) as [|w ms] eqn:Ey; [discriminate|]. cbn [length] in Hyt. apply Nat.succ_inj in Hyt.
  destruct (HP w ms u v q Hyt Hu Hv Hq) as (Ha & Hc & Hi). split; [exact Hc|].
  unfold system_equation, derivatives in Hd. cbn [poly_load ml_n ml_omega ml_ode motor_idx load_idx] in Hd.
  unfold motor_idx, load_idx in Hd. cbn [poly_load ml_n seq select nth_error bind] in Hd. rewrite <- Hyt, select_tl in Hd. cbn [bind] in Hd.
  unfold item in Hd. cbn [nth_error bind] in Hd.
  destruct (mo_ode mo ms q w) as [md|] eqn:Em; cbn [bind] in Hd; [|discriminate].
  destruct (mo_torque mo ms) as [T|] eqn:ET; cbn [bind] in Hd; [|discriminate].
  unfold poly_ode, item in Hd. cbn [nth_error bind fst snd app] in Hd. injection Hd as <-. cbn [length] in Ld. apply Nat.succ_inj in Ld.
  destruct (HB (fun s => tl (y s)) q w t) as (T' & HT & HE).
  - intros s. specialize (Hy s). destruct (y s); [discriminate|]. cbn in *. lia.
  - exact Ha.
  - exists md. rewrite Ey. cbn [tl]. split; [exact Em|]. split; [exact Ld|]. intros k Hk.
    specialize (D (S k) ltac:(lia)). cbn [nth] in D.
    intros eps Heps. destruct (D eps Heps) as [del Hdel]. exists del. intros h H0 Hh. specialize (Hdel h H0 Hh).
    assert (En : forall l : list R, nth k (tl l) 0 = nth (S k) l 0) by (intros [|? ?]; [now destruct k|reflexivity]).
    rewrite !En. exact Hdel.
  - rewrite Ey in HT, HE. cbn [tl] in HT, HE. rewrite ET in HT. injection HT as <-.
    pose proof (D 0%nat ltac:(lia)) as D0. cbn [nth] in D0. rewrite Hi in HE.
    eapply dl_eq.
    + apply dl_plus; [exact HE|]. apply dl_scal. apply (dl_mult (fun s => ix (y s) 0) (fun s => ix (y s) 0)); exact D0.
    + cbv beta. unfold ix. rewrite Ey. cbn [nth tl]. field. exact Hj.
Qed.

(** Phase power and dq power. *)
Lemma power3 a b c x y z : power [a; b; c] [x; y; z] = a * x + b * y + c * z.
Proof. unfold power. cbn. ring. Qed.
Lemma dq_power u d q0 e abc udq : length u = 3%nat -> dq_to_abc [d; q0] e false = Ok abc -> abc_to_dq u e false = Ok udq ->
  length abc = 3%nat /\ length udq = 2%nat /\ power u abc = 3 / 2 * (ix udq 0 * d + ix udq 1 * q0).
Proof.
  intros Hu Ha Hd. destruct (dq_abc_roundtrip [d; q0] e false eq_refl) as (abc' & E1 & L & Z & E2). rewrite Ha in E1. injection E1 as <-.
  destruct (power_in_dq u abc e false Hu L) as (udq' & idq & F1 & F2 & F3). rewrite Hd in F1. injection F1 as <-. rewrite E2 in F2. injection F2 as <-.
  split; [exact L|]. destruct (abc_dq_roundtrip u e false Hu) as (dq & G1 & G2 & _). rewrite Hd in G1. injection G1 as <-. split; [exact G2|].
  destruct u as [|u0 [|u1 [|u2 [|? ?]]]]; try discriminate. destruct abc as [|a [|b [|c [|? ?]]]]; try discriminate.
  destruct udq as [|ud [|uq [|? ?]]]; try discriminate. cbn in F3, Z. rewrite power3. unfold ix. cbn [nth].
  replace (a + (b + (c + 0))) with 0 in F3. lra.
Qed.
Lemma ab_power u d q0 abc uab : length u = 3%nat -> alphabeta_to_abc [d; q0] = Ok abc -> abc_to_alphabeta u = Ok uab ->
  length abc = 3%nat /\ length uab = 2%nat /\ power u abc = 3 / 2 * (ix uab 0 * d + ix uab 1 * q0).
Proof.
  intros Hu Ha Hd. destruct u as [|u0 [|u1 [|u2 [|? ?]]]]; try discriminate.
  unfold alphabeta_to_abc in Ha. unfold abc_to_alphabeta in Hd. rewrite t_32_val in Ha. rewrite t_23_val in Hd. injection Ha as <-. injection Hd as <-.
  split; [reflexivity|]. split; [reflexivity|]. rewrite power3. unfold ix. cbn [nth]. field.
Qed.
