(** More proofs about the physical systems: no step raises; the concrete systems. *)
From Verif Require Import PyBaseFacts PyDictFacts Conv_Model Conv_Spec Conv_Proofs Conv_Proofs2 Solver_Model Solver_Spec Solver_Proofs Supply_Model
  Transform_Model Transform_Proofs Motor_Model Motor_Spec Motor_Proofs Loads_Model PhysSys_Model PhysSys_Spec PhysSys_Proofs.

(** ** Integration does not raise if the right hand side does not *)
Lemma integrate_total {P} (f : rhs P) (n N : nat) p : (1 <= N)%nat ->
  (forall t y, length y = n -> exists d, f p t y = Ok d /\ length d = n) ->
  forall t0 t1 y, length y = n ->
  exists y', integrate f {| eu_n := N; eu_t := t0; eu_y := Some y; eu_p := Some p |} t1 =
    ({| eu_n := N; eu_t := t1; eu_y := Some y'; eu_p := Some p |}, Ok y') /\ length y' = n.
Proof.
  intros HN Hf t0 t1 y Hy.
  assert (Hloop : forall h k ct y, length y = n -> exists y', nsteps_loop (f p) h k ct y = Ok y' /\ length y' = n).
  { intros h k. induction k as [|k IH]; intros ct z Hz; cbn [nsteps_loop]; [eauto|].
    destruct (Hf (ct + h) z Hz) as (d & -> & Hd). cbn [bind]. rewrite np_add_ok by lia. cbn [bind]. apply IH.
    rewrite map2_len; lia. }
  unfold integrate. cbn [eu_n eu_p eu_y eu_t]. destruct N as [|[|N]]; [lia| |].
  - destruct (Hf t0 y Hy) as (d & -> & Hd). cbn [bind]. rewrite np_add_ok by lia. eexists. split; [reflexivity|]. rewrite map2_len; lia.
  - destruct (Hloop ((t1 - t0) / INR (S (S N))) (S (S N)) t1 y Hy) as (y' & -> & H). eauto.
Qed.

Section Total.
Context {C S A U V : Type}.
Context (cv : conv_if C A) (sp : supply_if S) (f : rhs U) (tau : R).
Context (view : list R -> res V) (cur : V -> list R) (volt volt_last : V -> list R -> res U).
Context (act : V -> A -> res A) (out : V -> interval U -> list R -> res (list R)) (limits : list lim).
Context (obs : list R -> list R -> list R -> list R -> res (list R)).
Context (P0 P : C -> Prop) (Q0 Q : S -> Prop) (PP : U -> Prop) (valid : A -> Prop) (nl nm m k j : nat).
Notation n := (nl + nm)%nat.
Hypothesis HP : forall c, P c -> P0 c.
Hypothesis HQ : forall s, Q s -> Q0 s.
Hypothesis Hview : forall y, length y = n -> exists v, view y = Ok v /\ length (cur v) = m.
Hypothesis Hisup : forall c i, P c -> length i = m -> exists r, cv_i_sup cv c i = Ok r.
Hypothesis Hconv : forall c i t, P c -> length i = m -> exists c' u, cv_convert cv c i t = (c', Ok u) /\ P c' /\ length u = k.
Hypothesis Hget : forall s t i, Q s -> exists s' us, sp_get sp s t i = (s', Ok us) /\ Q s' /\ length us = j.
Hypothesis Hvolt : forall y v u, length y = n -> view y = Ok v -> length u = (k * j)%nat -> exists p, volt v u = Ok p /\ PP p.
Hypothesis Hvoltl : forall y v u, length y = n -> view y = Ok v -> length u = (k * j)%nat -> exists p, volt_last v u = Ok p /\ PP p.
Hypothesis Hf : forall p t y, PP p -> length y = n -> exists d, f p t y = Ok d /\ length d = n.
Hypothesis Hset : forall y v a c t, length y = n -> view y = Ok v -> valid a -> P0 c ->
  exists a' c' ts, act v a = Ok a' /\ cv_set_action cv c a' t = (c', Ok ts) /\ P c'.
Hypothesis Hout : forall y v iv st, length y = n -> view y = Ok v -> length (iv_y iv) = n -> length (iv_u iv) = (k * j)%nat ->
  length (iv_sup iv) = j -> PP (iv_par iv) -> length st = length limits ->
  exists o, out v iv st = Ok o /\ length o = length limits.
Hypothesis Hcreset : forall c, P0 c -> exists c' u, cv_reset cv c = (c', Ok u) /\ P0 c' /\ length u = k.
Hypothesis Hsreset : forall s, Q0 s -> exists s' us, sp_reset sp s = (s', Ok us) /\ Q s' /\ length us = j.
Hypothesis Hobs : forall mech ms u us, length mech = nl -> length ms = nm -> length u = (k * j)%nat -> length us = j ->
  exists o, obs mech ms u us = Ok o /\ length o = length limits.

Definition ready0 (x : sys C S U) : Prop :=
  P0 (sy_c x) /\ Q0 (sy_s x) /\ (1 <= eu_n (sy_e x))%nat /\ length (sy_state x) = length limits.
Definition ready (x : sys C S U) : Prop :=
  P0 (sy_c x) /\ Q (sy_s x) /\ (1 <= eu_n (sy_e x))%nat /\ length (sy_state x) = length limits.
Definition running (x : sys C S U) : Prop := exists y, eu_y (sy_e x) = Some y /\ length y = n.

Lemma scale_length u us : length (scale_voltages u us) = (length u * length us)%nat.
Proof. induction u as [|a u IH]; cbn; [reflexivity|]. now rewrite app_length, map_length, <- IH. Qed.

Lemma sub_interval_total vv i (x : sys C S U) t y : P (sy_c x) -> Q (sy_s x) -> (1 <= eu_n (sy_e x))%nat ->
  eu_y (sy_e x) = Some y -> length y = n -> length i = m ->
  (forall u, length u = (k * j)%nat -> exists p, vv u = Ok p /\ PP p) ->
  exists x' iv, sub_interval cv sp f vv i x t = (x', Ok iv) /\ P (sy_c x') /\ Q (sy_s x') /\ eu_n (sy_e x') = eu_n (sy_e x) /\
    eu_y (sy_e x') = Some (iv_y iv) /\ length (iv_y iv) = n /\ length (iv_u iv) = (k * j)%nat /\ length (iv_sup iv) = j /\ PP (iv_par iv) /\
    sy_state x' = sy_state x.
Proof.
  intros Hc Hs Hn Hy Hly Hi Hvv. unfold sub_interval.
  destruct (Hisup (sy_c x) i Hc Hi) as [r ->]. destruct (Hget (sy_s x) (sy_t x) r Hs) as (s' & us & -> & Hs' & Hus).
  cbn [with_s sy_c sy_e]. destruct (Hconv (sy_c x) i (eu_t (sy_e x)) Hc Hi) as (c' & u & -> & Hc' & Hu).
  assert (Hl : length (scale_voltages u us) = (k * j)%nat) by (rewrite scale_length; congruence).
  destruct (Hvv _ Hl) as (p & -> & Hp). change (sy_e (with_c c' (with_s s' x))) with (sy_e x).
  destruct (integrate_total f n (eu_n (sy_e x)) p Hn (fun t y => Hf p t y Hp) (eu_t (sy_e x)) t y Hly) as (y' & E & Hy').
  replace (set_f_params p (sy_e x)) with ({| eu_n := eu_n (sy_e x); eu_t := eu_t (sy_e x); eu_y := Some y; eu_p := Some p |})
    by (unfold set_f_params; now rewrite Hy).
  rewrite E. cbn [bind]. eexists _, _. split; [reflexivity|]. cbn. auto 10.
Qed.

Lemma intervals_total ts : forall v (x : sys C S U) y, P (sy_c x) -> Q (sy_s x) -> (1 <= eu_n (sy_e x))%nat ->
  eu_y (sy_e x) = Some y -> length y = n -> view y = Ok v ->
  exists x' v' y', intervals cv sp f view cur volt v x ts = (x', Ok v') /\ P (sy_c x') /\ Q (sy_s x') /\ eu_n (sy_e x') = eu_n (sy_e x) /\
    eu_y (sy_e x') = Some y' /\ length y' = n /\ view y' = Ok v' /\ sy_state x' = sy_state x.
Proof.
  induction ts as [|t ts IH]; intros v x y Hc Hs Hn Hy Hly Hv; cbn [intervals].
  - exists x, v, y. auto 10.
  - destruct (Hview y Hly) as (v0 & Hv0 & Hcur). assert (v0 = v) by congruence. subst v0.
    destruct (sub_interval_total (volt v) (cur v) x t y Hc Hs Hn Hy Hly Hcur (fun u => Hvolt y v u Hly Hv))
      as (x1 & iv & -> & H1 & H2 & H3 & H4 & H5 & _ & _ & _ & H6).
    destruct (Hview _ H5) as (v1 & Hv1 & _). rewrite Hv1.
    destruct (IH v1 x1 (iv_y iv) H1 H2 ltac:(lia) H4 H5 Hv1) as (x' & v' & y' & -> & G1 & G2 & G3 & G4 & G5 & G6 & G7).
    exists x', v', y'. rewrite G3, G7. auto 10.
Qed.

Lemma np_div_total st : length st = length limits -> exists o, np_div st limits = Ok o.
Proof. intros H. unfold np_div. rewrite H, Nat.eqb_refl. eauto. Qed.

Lemma simulate_total a (x : sys C S U) : ready x -> running x -> valid a ->
  exists x' o, simulate cv sp f tau view cur volt volt_last act out limits a x = (x', Ok o) /\ ready x' /\ running x'.
Proof.
  intros (Hc & Hs & Hn & Hst) (y & Hy & Hly) Ha. unfold simulate. rewrite Hy.
  destruct (Hview y Hly) as (v & Hv & _). rewrite Hv. cbn [bind].
  destruct (Hset y v a (sy_c x) (sy_t x) Hly Hv Ha Hc) as (a' & c' & ts & -> & E & Hc'). cbn [bind]. rewrite E.
  destruct (intervals_total (removelast ts) v (with_c c' x) y Hc' Hs Hn Hy Hly Hv) as (x2 & v2 & y2 & -> & G1 & G2 & G3 & G4 & G5 & G6 & G7).
  destruct (Hview y2 G5) as (v0 & Hv0 & Hcur). assert (v0 = v2) by congruence. subst v0.
  destruct (sub_interval_total (volt_last v2) (cur v2) x2 (sy_t x2 + tau) y2 G1 G2 ltac:(rewrite G3; exact Hn) G4 G5 Hcur (fun u => Hvoltl y2 v2 u G5 G6))
      as (x3 & iv & -> & H1 & H2 & H3 & H4 & H5 & H6 & H7 & H8 & H9).
  cbn [sy_state sy_c sy_s sy_e].
  assert (Hl : length (sy_state x3) = length limits) by (rewrite H9, G7; exact Hst).
  destruct (Hout y2 v2 iv (sy_state x3) G5 G6 H5 H6 H7 H8 Hl) as (st & -> & Hlst).
  destruct (np_div_total st Hlst) as [o Ho]. rewrite Ho. eexists _, _. split; [reflexivity|]. unfold ready, running. cbn.
  split; [split; [now apply HP|]; split; [exact H2|]; split; [rewrite H3, G3; exact Hn|exact Hlst]|]. eauto.
Qed.

Lemma ready_0 x : ready x -> ready0 x.
Proof. intros (H1 & H2 & H3 & H4). split; [exact H1|]. split; [now apply HQ|]. auto. Qed.
Lemma reset_total mech ms (x : sys C S U) : ready0 x -> length mech = nl -> length ms = nm ->
  exists x' o, reset cv sp limits obs (Ok (mech, ms)) x = (x', Ok o) /\ ready x' /\ running x'.
Proof.
  intros (Hc & Hs & Hn & Hst) H1 H2. unfold reset. destruct (Hsreset _ Hs) as (s' & us & -> & Hs' & Hus).
  cbn [with_s sy_c]. destruct (Hcreset _ Hc) as (c' & u & -> & Hc' & Hu). cbn [bind].
  destruct (Hobs mech ms (scale_voltages u us) us H1 H2 ltac:(rewrite scale_length; congruence) Hus) as (st & -> & Hl).
  destruct (np_div_total st Hl) as [o Ho]. rewrite Ho. eexists _, _. split; [reflexivity|]. unfold ready, running. cbn.
  split; [auto|]. exists (mech ++ ms). split; [reflexivity|]. rewrite app_length. lia.
Qed.

Definition op_valid (o : op A) : Prop :=
  match o with OReset (Ok (mech, ms)) => length mech = nl /\ length ms = nm | OReset _ => False | OStep a => valid a end.

Lemma run_total ops : forall x : sys C S U, ready x -> running x -> Forall op_valid ops ->
  exists x', run_ok (reset cv sp limits obs) (simulate cv sp f tau view cur volt volt_last act out limits) ops x = Some x' /\ ready x' /\ running x'.
Proof.
  induction ops as [|o ops IH]; intros x Hr Hx Hv; cbn [run_ok]; [eauto|]. inversion Hv as [|? ? Ho Hv']; subst.
  destruct o as [[[mech ms]|]|a]; cbn in Ho; [|contradiction|].
  - destruct (reset_total mech ms x (ready_0 x Hr) (proj1 Ho) (proj2 Ho)) as (x1 & o & -> & H1 & H2). now apply IH.
  - destruct (simulate_total a x Hr Hx Ho) as (x1 & o & -> & H1 & H2). now apply IH.
Qed.
Lemma run_total_fresh ops mech ms (x : sys C S U) : ready0 x -> length mech = nl -> length ms = nm -> Forall op_valid ops ->
  exists x', run_ok (reset cv sp limits obs) (simulate cv sp f tau view cur volt volt_last act out limits) (OReset (Ok (mech, ms)) :: ops) x = Some x'.
Proof.
  intros Hr H1 H2 Hv. cbn [run_ok]. destruct (reset_total mech ms x Hr H1 H2) as (x1 & o & -> & G1 & G2).
  destruct (run_total ops x1 G1 G2 Hv) as (x' & -> & _). eauto.
Qed.
End Total.

(** ** Finite converters meet the contract *)
Lemma fin_i_sup_total c i : fin_ok c -> length i = fin_dim c -> exists r, fin_i_sup c i = Ok r.
Proof.
  intros Hc Hi.
  assert (Hleg : forall l i0 i, f2_ok l -> exists r, f2_i_sup l (i0 :: i) = Ok r).
  { intros l i0 i' Hl. rewrite f2_i_sup_val by apply Hl. eauto. }
  destruct c as [c|c|c|c]; cbn [fin_dim fin_i_sup] in *.
  - destruct i as [|i0 [|]]; try discriminate. unfold f1_i_sup. destruct (f1_cur c =? 1)%Z; cbn; eauto.
  - destruct i as [|i0 [|]]; try discriminate. apply Hleg. inversion Hc; assumption.
  - destruct i as [|i0 [|]]; try discriminate. inversion Hc as [|? ? H1 H2]; subst. inversion H2; subst.
    unfold f4_i_sup. destruct (Hleg (f4_a c) i0 [] H1) as [r1 ->]. cbn [bind head_r]. destruct (Hleg (f4_b c) (- i0) [] ltac:(assumption)) as [r2 ->]. cbn. eauto.
  - destruct i as [|i0 [|i1 [|i2 [|]]]]; try discriminate. inversion Hc as [|? ? H1 H2]; subst. inversion H2 as [|? ? H3 H4]; subst. inversion H4; subst.
    unfold f6_i_sup. destruct (Hleg (f6_a c) i0 [] H1) as [r1 ->]. destruct (Hleg (f6_b c) i1 [] H3) as [r2 ->].
    destruct (Hleg (f6_c c) i2 [] ltac:(assumption)) as [r3 ->]. cbn. eauto.
Qed.

Definition finP (N : Z) (d : nat) (c : fin) : Prop := fin_ok c /\ pat_set c /\ fin_n c = N /\ fin_dim c = d.
Definition finP0 (N : Z) (d : nat) (c : fin) : Prop := fin_ok c /\ fin_n c = N /\ fin_dim c = d.
Lemma finP_0 N d c : finP N d c -> finP0 N d c.
Proof. intros (H1 & _ & H2 & H3). split; auto. Qed.
Lemma ideal_out_length c i : length i = fin_dim c -> length (ideal_out c i) = fin_dim c.
Proof. destruct c; cbn [fin_dim]; intros H; des_list i; try discriminate; reflexivity. Qed.
Lemma fin_convert_total N d c i t : finP N d c -> length i = d ->
  exists c' u, fin_convert c i t = (c', Ok u) /\ finP N d c' /\ length u = d.
Proof.
  intros (H1 & H2 & H3 & H4) Hi. destruct (fin_convert_def c i t H1 H2 ltac:(congruence)) as (c' & E & _ & G1 & G2 & _).
  exists c', (ideal_out c' i). split; [exact E|].
  pose proof (fin_step_ok c (OpConvert i t) H1) as K1. pose proof (fin_step_pat c (OpConvert i t) H2) as K2. cbn [fin_step] in K1, K2. rewrite E in K1, K2. cbn [fst] in *.
  split; [unfold finP; rewrite G1, G2; auto|]. rewrite ideal_out_length; congruence.
Qed.
Lemma fin_set_total N d c a t : finP0 N d c -> (0 <= a < N)%Z -> exists c' ts, fin_set_action c a t = (c', Ok ts) /\ finP N d c'.
Proof.
  intros (H1 & H2 & H3) Ha. subst N. destruct (fin_set_valid c a t Ha) as (c' & ts & E & _ & G1 & G2 & _). exists c', ts. split; [exact E|].
  pose proof (fin_step_ok c (OpSet a t) H1) as K1. pose proof (fin_set_valid_pat c a t Ha) as K2. cbn [fin_step] in K1. rewrite E in K1, K2. cbn [fst] in *.
  unfold finP. rewrite G1, G2. auto.
Qed.
Lemma fin_reset_total N d c : finP0 N d c -> exists c' u, fin_reset c = (c', Ok u) /\ finP0 N d c' /\ length u = d.
Proof.
  intros (H1 & H2 & H3). pose proof (fin_step_ok c OpReset H1) as K1. pose proof (fin_step_kind c OpReset) as (K2 & K3 & _). cbn [fin_step] in *.
  assert (E : exists u, snd (fin_reset c) = Ok u /\ length u = d) by (destruct c; cbn in *; subst; eauto).
  destruct E as (u & E & Hu). destruct (fin_reset c) as [c' r]. cbn [fst snd] in *. subst r. exists c', u. split; [reflexivity|].
  split; [unfold finP0; rewrite K2, K3; auto|exact Hu].
Qed.
Lemma fin_isup_total N d c i : finP N d c -> length i = d -> exists r, fin_i_sup c i = Ok r.
Proof. intros (H1 & _ & _ & H) Hi. apply fin_i_sup_total; [exact H1|congruence]. Qed.

(** Multi converters; [ks] lists the number of actions and the dimension of each part. *)
Definition mulP (ks : list (Z * nat)) (cs : list fin) : Prop := Forall2 (fun kd c => finP (fst kd) (snd kd) c) ks cs.
Definition mulP0 (ks : list (Z * nat)) (cs : list fin) : Prop := Forall2 (fun kd c => finP0 (fst kd) (snd kd) c) ks cs.
Definition mul_dim (ks : list (Z * nat)) : nat := list_sum (map snd ks).
Definition mul_valid (ks : list (Z * nat)) (a : list Z) : Prop := Forall2 (fun kd x => 0 <= x < fst kd)%Z ks a.
Lemma mulP_0 ks cs : mulP ks cs -> mulP0 ks cs.
Proof. intros H. induction H; constructor; auto. now apply finP_0. Qed.
Lemma mul_convert_total ks : forall cs i t, mulP ks cs -> length i = mul_dim ks ->
  exists cs' u, fm_convert cs i t = (cs', Ok u) /\ mulP ks cs' /\ length u = mul_dim ks.
Proof.
  unfold mul_dim. induction ks as [|[N d] ks IH]; intros cs i t H Hi; inversion H as [|? c ? cs0 Hc Hcs]; subst; cbn [fm_convert].
  - exists [], []. split; [reflexivity|]. split; [constructor|reflexivity].
  - cbn [fst snd map list_sum fold_right] in *. assert (Hd : fin_dim c = d) by apply Hc. rewrite Hd.
    destruct (fin_convert_total N d c (firstn d i) t Hc) as (c' & u & -> & Hc' & Hu); [rewrite firstn_length; fold (list_sum (map snd ks)) in Hi; lia|].
    destruct (IH cs0 (skipn d i) t Hcs) as (cs' & us & -> & Hcs' & Hus); [rewrite skipn_length; fold (list_sum (map snd ks)) in Hi; lia|].
    cbn [bind]. eexists _, _. split; [reflexivity|]. split; [constructor; auto|]. rewrite app_length. fold (list_sum (map snd ks)). lia.
Qed.
Lemma mul_isup_total ks : forall cs i, mulP ks cs -> length i = mul_dim ks -> exists r, fm_i_sup cs i = Ok r.
Proof.
  unfold mul_dim. induction ks as [|[N d] ks IH]; intros cs i H Hi; inversion H as [|? c ? cs0 Hc Hcs]; subst; cbn [fm_i_sup]; [eauto|].
  cbn [fst snd map list_sum fold_right] in *. assert (Hd : fin_dim c = d) by apply Hc. rewrite Hd. fold (list_sum (map snd ks)) in Hi.
  destruct (fin_isup_total N d c (firstn d i) Hc) as (r & ->); [rewrite firstn_length; lia|].
  destruct (IH cs0 (skipn d i) Hcs) as (r' & ->); [rewrite skipn_length; lia|]. cbn. eauto.
Qed.
Lemma mul_set_total ks : forall cs a t, mulP0 ks cs -> mul_valid ks a -> exists cs' ts, fm_set_action cs a t = (cs', Ok ts) /\ mulP ks cs'.
Proof.
  assert (H : forall ks cs a t, mulP0 ks cs -> mul_valid ks a -> exists cs' ts, fm_set_all cs a t = (cs', Ok ts) /\ mulP ks cs').
  { clear ks. induction ks as [|[N d] ks IH]; intros cs a t H Ha; inversion H as [|? c ? cs0 Hc Hcs]; inversion Ha as [|? a0 ? a1 Ha0 Ha1]; subst; cbn [fm_set_all].
    - eexists _, _. split; [reflexivity|constructor].
    - destruct (fin_set_total N d c a0 t Hc Ha0) as (c' & ts & -> & Hc').
      destruct (IH cs0 a1 t Hcs Ha1) as (cs' & ts' & -> & Hcs'). cbn [bind]. eexists _, _. split; [reflexivity|]. constructor; auto. }
  intros cs a t H1 H2. unfold fm_set_action. destruct (H ks cs a t H1 H2) as (cs' & ts & -> & H'). cbn [bind]. eauto.
Qed.
Lemma mul_reset_total ks : forall cs, mulP0 ks cs -> exists cs' u, fm_reset cs = (cs', Ok u) /\ mulP0 ks cs' /\ length u = mul_dim ks.
Proof.
  unfold mul_dim. induction ks as [|[N d] ks IH]; intros cs H; inversion H as [|? c ? cs0 Hc Hcs]; subst; cbn [fm_reset].
  - exists [], []. split; [reflexivity|]. split; [constructor|reflexivity].
  - cbn [fst snd] in *. destruct (fin_reset_total N d c Hc) as (c' & u & -> & Hc' & Hu). destruct (IH cs0 Hcs) as (cs' & us & -> & Hcs' & Hus).
    cbn [bind]. eexists _, _. split; [reflexivity|]. split; [constructor; auto|]. rewrite app_length. cbn [map list_sum fold_right snd]. fold (list_sum (map snd ks)). lia.
Qed.

(** ** Components *)
(** A motor that, with [nu] voltages, never raises and hands [m] currents to the converter. *)
Definition motor_total {U} (PP : U -> Prop) (m : nat) (mo : motor U) : Prop :=
  (forall x u w, length x = mo_n mo -> PP u -> exists d, mo_ode mo x u w = Ok d /\ length d = mo_n mo) /\
  (forall x, length x = mo_n mo -> exists tq, mo_torque mo x = Ok tq) /\
  (forall i, length i = mo_nc mo -> exists r, mo_i_in mo i = Ok r /\ length r = m) /\
  (mo_nc mo <= mo_n mo)%nat /\ Forall (fun i => (i < mo_n mo)%nat) (mo_cidx mo) /\ length (mo_cidx mo) = mo_nc mo.
Definition load_total (ml : mload) : Prop :=
  (ml_omega ml < ml_n ml)%nat /\ forall t st tq, length st = ml_n ml -> exists d, ml_ode ml t st tq = Ok d /\ length d = ml_n ml.

Lemma select_seq {A} (y : list A) b : forall a, (a + b <= length y)%nat -> exists l, select (seq a b) y = Ok l /\ length l = b.
Proof.
  intros a H. destruct (select_ok (seq a b) y) as (r & E & Hr & _).
  - intros i Hi. apply in_seq in Hi. lia.
  - exists r. rewrite seq_length in Hr. auto.
Qed.
Lemma item_total y i : (i < length y)%nat -> exists r, item y i = Ok r.
Proof. intros H. unfold item. destruct (nth_error y i) eqn:E; [eauto|]. apply nth_error_None in E. lia. Qed.

Lemma system_equation_total {U} (PP : U -> Prop) m ml mo : load_total ml -> motor_total PP m mo ->
  forall p t y, PP p -> length y = (ml_n ml + mo_n mo)%nat ->
  exists d, system_equation ml mo p t y = Ok d /\ length d = (ml_n ml + mo_n mo)%nat.
Proof.
  intros (Hw & Hl) (Ho & Ht & _) p t y Hp Hy. unfold system_equation, derivatives.
  destruct (select_seq y (mo_n mo) (ml_n ml)) as (ms & Ems & Hms); [lia|]. unfold motor_idx. rewrite Ems. cbn [bind].
  destruct (item_total y (ml_omega ml)) as (w & ->); [lia|]. cbn [bind].
  destruct (Ho ms p w Hms Hp) as (md & -> & Hmd). cbn [bind]. destruct (Ht ms Hms) as (tq & ->). cbn [bind].
  destruct (select_seq y (ml_n ml) 0) as (ls & Els & Hls); [lia|]. unfold load_idx. rewrite Els. cbn [bind].
  destruct (Hl t ls tq Hls) as (ld & -> & Hld). cbn [bind fst snd]. eexists. split; [reflexivity|]. rewrite app_length. lia.
Qed.

Lemma put_all_length idx : forall vals a, length (put_all idx vals a) = length a.
Proof.
  induction idx as [|i idx IH]; intros [|v vals] a; cbn [put_all]; auto. rewrite IH. apply list_set_length.
Qed.
Lemma put_total idx vals a : Forall (fun i => (i < length a)%nat) idx -> length vals = length idx ->
  exists r, put idx vals a = Ok r /\ length r = length a.
Proof.
  intros H Hl. unfold put. replace (forallb (fun i => Nat.ltb i (length a)) idx) with true.
  - rewrite Hl, Nat.eqb_refl. eexists. split; [reflexivity|]. apply put_all_length.
  - symmetry. apply forallb_forall. intros i Hi. rewrite Forall_forall in H. apply Nat.ltb_lt, H, Hi.
Qed.
Lemma seq_lt a b n : (a + b <= n)%nat -> Forall (fun i => (i < n)%nat) (seq a b).
Proof. intros H. apply Forall_forall. intros i Hi. apply in_seq in Hi. lia. Qed.

(** Contracts of converters and supplies. *)
Definition conv_total {C A} (cv : conv_if C A) (P0 P : C -> Prop) (valid : A -> Prop) (m : nat) : Prop :=
  (forall c, P c -> P0 c) /\
  (forall c i, P c -> length i = m -> exists r, cv_i_sup cv c i = Ok r) /\
  (forall c i t, P c -> length i = m -> exists c' u, cv_convert cv c i t = (c', Ok u) /\ P c' /\ length u = m) /\
  (forall c a t, P0 c -> valid a -> exists c' ts, cv_set_action cv c a t = (c', Ok ts) /\ P c') /\
  (forall c, P0 c -> exists c' u, cv_reset cv c = (c', Ok u) /\ P0 c' /\ length u = m).
Definition supply_total {S} (sp : supply_if S) (Q0 Q : S -> Prop) (j : nat) : Prop :=
  (forall s, Q s -> Q0 s) /\
  (forall s t i, Q s -> exists s' us, sp_get sp s t i = (s', Ok us) /\ Q s' /\ length us = j) /\
  (forall s, Q0 s -> exists s' us, sp_reset sp s = (s', Ok us) /\ Q s' /\ length us = j).

Lemma fin_total N d : conv_total fin_if (finP0 N d) (finP N d) (fun a => 0 <= a < N)%Z d.
Proof.
  split; [apply finP_0|]. split; [intros c i H1 H2; now apply (fin_isup_total N d)|]. split; [intros c i t H1 H2; now apply fin_convert_total|].
  split; [intros c a t H1 H2; now apply fin_set_total|]. intros c H. now apply fin_reset_total.
Qed.
Lemma mul_total ks : conv_total multi_if (mulP0 ks) (mulP ks) (mul_valid ks) (mul_dim ks).
Proof.
  split; [apply mulP_0|]. split; [intros c i H1 H2; now apply (mul_isup_total ks)|]. split; [intros c i t H1 H2; now apply mul_convert_total|].
  split; [intros c a t H1 H2; now apply mul_set_total|]. intros c H. now apply mul_reset_total.
Qed.
Definition conP (d : nat) (c : con) : Prop := con_dim c = d.
Lemma con_total d : conv_total con_if (conP d) (conP d) (fun a => length a = d) d.
Proof.
  split; [auto|]. split; [|split; [|split]].
  - intros c i H Hi. unfold conP in H. destruct c; cbn in H; subst d; des_list i; try discriminate; eexists; reflexivity.
  - intros c i t H Hi. unfold conP in H. exists c. destruct c; cbn in H; subst d; des_list i; try discriminate; (eexists; split; [reflexivity|]; split; reflexivity).
  - intros c a t H Ha. unfold conP in *. destruct c; cbn in H; subst d; des_list a; try discriminate; (eexists _, _; split; [reflexivity|]; reflexivity).
  - intros c H. unfold conP in *. destruct c; cbn in H; subst d; (eexists _, _; split; [reflexivity|]; split; reflexivity).
Qed.
Lemma ideal_total : supply_total ideal_if (fun _ => True) (fun _ => True) 1.
Proof. split; [auto|]. split; intros s; cbn; eauto. Qed.
Definition rcQ (s : rc) : Prop := rc_r s * rc_c s <> 0 /\ eu_n (rc_solver s) = 1%nat /\ exists u, eu_y (rc_solver s) = Some [u].
Definition rcQ0 (s : rc) : Prop := rc_r s * rc_c s <> 0 /\ eu_n (rc_solver s) = 1%nat.
Lemma rc_total : supply_total rc_if rcQ0 rcQ 1.
Proof.
  split; [intros s (H1 & H2 & _); split; auto|]. split.
  - intros s t i (H1 & H2 & u & Hu). cbn [rc_if sp_get]. unfold rc_get.
    set (p := {| p_u0 := rc_u0 s; p_i := i; p_r := rc_r s; p_c := rc_c s |}).
    destruct (integrate_total rc_rhs 1 1 p (le_n 1)) with (t0 := eu_t (rc_solver s)) (t1 := t) (y := [u]) as (y' & E & Hy').
    + intros t' [|a [|]] Hl; try discriminate. unfold rc_rhs. cbn [p p_r p_c].
      destruct (reqP (rc_r s * rc_c s) 0); [contradiction|]. eauto.
    + reflexivity.
    + replace (set_f_params p (rc_solver s)) with ({| eu_n := 1; eu_t := eu_t (rc_solver s); eu_y := Some [u]; eu_p := Some p |})
        by (unfold set_f_params; now rewrite H2, Hu).
      rewrite E. eexists _, _. split; [reflexivity|]. split; [|exact Hy'].
      split; [exact H1|]. split; [reflexivity|]. cbn. destruct y' as [|a [|]]; try discriminate. eauto.
  - intros s (H1 & H2). cbn. eexists _, _. split; [reflexivity|]. split; [|reflexivity]. split; [exact H1|]. split; [exact H2|]. cbn. eauto.
Qed.
Lemma ac1_total draw : supply_total (ac_if draw) (fun s => ac_phases s = 1%nat) (fun s => ac_phases s = 1%nat) 1.
Proof.
  split; [auto|]. split.
  - intros s t i H. cbn. unfold ac_get. rewrite H. eauto.
  - intros s H. cbn. unfold ac_reset. destruct (ac_fixed s); unfold ac_get; cbn; rewrite H; eauto.
Qed.

Lemma abc_to_dq_total u e : length u = 3%nat -> exists d, abc_to_dq u e false = Ok d /\ length d = 2%nat.
Proof. intros H. destruct (len3 u H) as (a & b & c & ->). unfold abc_to_dq. rewrite t_23_val. cbn [bind]. rewrite q_inv_val. eauto. Qed.
Lemma dq_to_abc_total u e : length u = 2%nat -> exists d, dq_to_abc u e false = Ok d /\ length d = 3%nat.
Proof. intros H. destruct (len2 u H) as (a & b & ->). unfold dq_to_abc. rewrite q_val. cbn [bind]. rewrite t_32_val. eauto. Qed.
Lemma alphabeta_to_abc_total u : length u = 2%nat -> exists d, alphabeta_to_abc u = Ok d /\ length d = 3%nat.
Proof. intros H. destruct (len2 u H) as (a & b & ->). unfold alphabeta_to_abc. rewrite t_32_val. eauto. Qed.
Lemma abc_to_alphabeta_total u : length u = 3%nat -> exists d, abc_to_alphabeta u = Ok d /\ length d = 2%nat.
Proof. intros H. destruct (len3 u H) as (a & b & c & ->). unfold abc_to_alphabeta. rewrite t_23_val. eauto. Qed.
Lemma alphabeta_to_dq_total u e : length u = 2%nat -> exists d, alphabeta_to_dq u e false = Ok d /\ length d = 2%nat.
Proof. intros H. destruct (len2 u H) as (a & b & ->). unfold alphabeta_to_dq. rewrite q_inv_val. eauto. Qed.
Lemma dq_to_alphabeta_total u e : length u = 2%nat -> exists d, dq_to_alphabeta u e false = Ok d /\ length d = 2%nat.
Proof. intros H. destruct (len2 u H) as (a & b & ->). unfold dq_to_alphabeta. rewrite q_val. eauto. Qed.

(** The concrete motors. *)
Ltac mt x := intros; des_list x; try discriminate; cbn [mo_n mo_nc] in *;
  match goal with H : length _ = _ |- _ => try discriminate H end.
Lemma dc_motors_total m : motor_total (fun u : list R => length u = 2%nat) 2 (extex_motor m) /\
  motor_total (fun u : list R => length u = 1%nat) 1 (shunt_motor m) /\ motor_total (fun u : list R => length u = 1%nat) 1 (series_motor m).
Proof.
  split; [|split]; (split; [|split; [|split; [|split; [|split]]]]); cbn [extex_motor shunt_motor series_motor mo_n mo_nc mo_cidx mo_ode mo_torque mo_i_in];
    try lia; try reflexivity; try (repeat constructor; lia).
  all: try (intros x u w Hx Hu; des_list x; try discriminate; des_list u; try discriminate; cbn; eauto).
  all: intros x Hx; des_list x; try discriminate; cbn; eauto.
Qed.
Lemma perm_motor_total m : motor_total (fun u : list R => length u = 1%nat) 1 (perm_motor m).
Proof.
  (split; [|split; [|split; [|split; [|split]]]]); cbn [perm_motor mo_n mo_nc mo_cidx mo_ode mo_torque mo_i_in];
    try lia; try reflexivity; try (repeat constructor; lia).
  all: try (intros x u w Hx Hu; des_list x; try discriminate; des_list u; try discriminate; cbn; eauto).
  all: intros x Hx; des_list x; try discriminate; cbn; eauto.
Qed.
Lemma pmsm_motor_total m : motor_total (fun u : list R => length u = 2%nat) 2 (pmsm_motor m).
Proof.
  (split; [|split; [|split; [|split; [|split]]]]); cbn [pmsm_motor mo_n mo_nc mo_cidx mo_ode mo_torque mo_i_in];
    try lia; try reflexivity; try (repeat constructor; lia).
  all: try (intros x u w Hx Hu; des_list x; try discriminate; des_list u; try discriminate; cbn; eauto).
  all: intros x Hx; des_list x; try discriminate; cbn; eauto.
Qed.
Lemma synrm_motor_total m : motor_total (fun u : list R => length u = 2%nat) 2 (synrm_motor m).
Proof.
  (split; [|split; [|split; [|split; [|split]]]]); cbn [synrm_motor mo_n mo_nc mo_cidx mo_ode mo_torque mo_i_in];
    try lia; try reflexivity; try (repeat constructor; lia).
  all: try (intros x u w Hx Hu; des_list x; try discriminate; des_list u; try discriminate; cbn; eauto).
  all: intros x Hx; des_list x; try discriminate; cbn; eauto.
Qed.
Lemma scim_motor_total m : motor_total (fun u : list R => length u = 2%nat) 2 (scim_motor m).
Proof.
  (split; [|split; [|split; [|split; [|split]]]]); cbn [scim_motor mo_n mo_nc mo_cidx mo_ode mo_torque mo_i_in];
    try lia; try reflexivity; try (repeat constructor; lia).
  all: try (intros x u w Hx Hu; des_list x; try discriminate; des_list u; try discriminate; cbn; eauto).
  all: intros x Hx; des_list x; try discriminate; cbn; eauto.
Qed.
Lemma dfim_motor_total m : motor_total is_2x2 2 (dfim_motor m).
Proof.
  (split; [|split; [|split; [|split; [|split]]]]); cbn [dfim_motor mo_n mo_nc mo_cidx mo_ode mo_torque mo_i_in];
    try lia; try reflexivity; try (repeat constructor; lia).
  - intros x u w Hx (a & b & c & d & ->). des_list x; try discriminate. cbn; eauto.
  - intros x Hx; des_list x; try discriminate; cbn; eauto.
  - intros x Hx; des_list x; try discriminate; cbn; eauto.
Qed.
Lemma poly_load_total p : load_total (poly_load p).
Proof. split; cbn; [lia|]. intros t [|w [|]] tq H; try discriminate. cbn. eauto. Qed.
Lemma const_load_total : load_total const_load.
Proof. split; cbn; [lia|]. intros t st tq H. unfold const_ode. eauto. Qed.

(** ** The drives *)
Ltac seqt y := match goal with |- context [select (seq ?a ?b) y] =>
  let l := fresh "l" in let E := fresh "E" in let H := fresh "Hl" in
  destruct (select_seq y b a) as (l & E & H); [lia|]; rewrite E; cbn [bind] end.

Section Drives.
Context {C S A : Type} (cv : conv_if C A) (sp : supply_if S) (tau : R) (ml : mload) (limits : list lim).
Context (P0 P : C -> Prop) (valid' : A -> Prop) (m : nat) (Q0 Q : S -> Prop).
Hypothesis Hcv : conv_total cv P0 P valid' m.
Hypothesis Hsp : supply_total sp Q0 Q 1.
Hypothesis Hml : load_total ml.

Lemma dc_drive_total mo : motor_total (fun u : list R => length u = m) m mo -> mo_n mo = mo_nc mo ->
  length limits = (ml_n ml + 1 + mo_nc mo + m + 1)%nat ->
  forall ops mech ms x, ready0 limits P0 Q0 x -> length mech = ml_n ml -> length ms = mo_n mo ->
  Forall (op_valid valid' (ml_n ml) (mo_n mo)) ops ->
  exists x', run_ok (reset cv sp limits (dc_obs ml mo))
    (simulate cv sp (system_equation ml mo) tau (dc_view ml mo) dc_cur dc_volt dc_volt act_id (dc_out ml mo m 1) limits)
    (OReset (Ok (mech, ms)) :: ops) x = Some x'.
Proof.
  intros Hmo Hn Hlim. destruct Hcv as (C1 & C2 & C3 & C4 & C5). destruct Hsp as (S1 & S2 & S3). pose proof Hmo as (M1 & M2 & M3 & M4 & M5 & M6).
  apply (run_total_fresh cv sp (system_equation ml mo) tau (dc_view ml mo) dc_cur dc_volt dc_volt act_id (dc_out ml mo m 1) limits (dc_obs ml mo)
    P0 P Q0 Q (fun u : list R => length u = m) valid' (ml_n ml) (mo_n mo) m m 1); try assumption.
  - intros y Hy. unfold dc_view, cur_idx. seqt y. destruct (M3 l Hl) as (r & Er & Hr). exists r. auto.
  - intros y v u _ _ Hu. exists u. rewrite Hu. split; [reflexivity|lia].
  - intros y v u _ _ Hu. exists u. rewrite Hu. split; [reflexivity|lia].
  - apply (system_equation_total _ m); assumption.
  - intros y v a c t _ _ Ha Hc. destruct (C4 c a t Hc Ha) as (c' & ts & E & H). exists a, c', ts. auto.
  - intros y v iv st _ _ Hy Hu Hsup Hp Hst. unfold dc_out, motor_idx. seqt (iv_y iv). destruct (M2 l Hl) as (tq & ->). cbn [bind].
    unfold load_idx, dc_torque_idx, dc_currents_idx, dc_voltages_idx, dc_usup_idx, dc_torque_idx.
    destruct (put_total (seq 0 (ml_n ml)) (firstn (ml_n ml) (iv_y iv)) st) as (s1 & -> & L1);
      [apply seq_lt; lia|rewrite seq_length, firstn_length; lia|]. cbn [bind].
    destruct (put_total [ml_n ml] [tq] s1) as (s2 & -> & L2); [constructor; [lia|constructor]|reflexivity|]. cbn [bind].
    destruct (select_ok (mo_cidx mo) (skipn (ml_n ml) (iv_y iv))) as (cs & -> & Hcs & _).
    { intros i Hi. rewrite Forall_forall in M5. specialize (M5 i Hi). rewrite skipn_length. lia. }
    cbn [bind].
    destruct (put_total (seq (ml_n ml + 1) (mo_nc mo)) cs s2) as (s3 & -> & L3); [apply seq_lt; lia|rewrite seq_length; lia|]. cbn [bind].
    destruct (put_total (seq (ml_n ml + 1 + mo_nc mo) m) (iv_u iv) s3) as (s4 & -> & L4); [apply seq_lt; lia|rewrite seq_length; lia|]. cbn [bind].
    destruct (put_total (seq (ml_n ml + 1 + mo_nc mo + m) 1) (iv_sup iv) s4) as (s5 & -> & L5); [apply seq_lt; lia|rewrite seq_length; lia|].
    exists s5. split; [reflexivity|lia].
  - intros mech ms u us H1 H2 Hu Hus. unfold dc_obs. destruct (M2 ms H2) as (tq & ->). cbn [bind].
    destruct (select_ok (mo_cidx mo) ms) as (cs & -> & Hcs & _). { intros i Hi. rewrite Forall_forall in M5. specialize (M5 i Hi). lia. }
    cbn [bind]. eexists. split; [reflexivity|]. rewrite !app_length, firstn_length, app_length. cbn [length]. lia.
Qed.

(** Three phase drives with one motor voltage vector. *)
Context (act : R * list R -> A -> res A) (valid : A -> Prop).
Hypothesis Hact : forall v a, valid a -> exists a', act v a = Ok a' /\ valid' a'.

Lemma sync_drive_total mo : m = 3%nat -> motor_total (fun u : list R => length u = 2%nat) 2 mo -> mo_n mo = 3%nat -> mo_nc mo = 2%nat ->
  length limits = (ml_n ml + 13)%nat ->
  forall ops mech ms x, ready0 limits P0 Q0 x -> length mech = ml_n ml -> length ms = mo_n mo ->
  Forall (op_valid valid (ml_n ml) (mo_n mo)) ops ->
  exists x', run_ok (reset cv sp limits (sync_obs ml mo))
    (simulate cv sp (system_equation ml mo) tau (sync_view ml mo) snd sync_volt sync_volt act (sync_out ml mo) limits)
    (OReset (Ok (mech, ms)) :: ops) x = Some x'.
Proof.
  intros Hm Hmo Hn Hnc Hlim. rewrite Hm in Hcv. destruct Hcv as (C1 & C2 & C3 & C4 & C5). destruct Hsp as (S1 & S2 & S3). pose proof Hmo as (M1 & M2 & M3 & M4 & M5 & M6).
  apply (run_total_fresh cv sp (system_equation ml mo) tau (sync_view ml mo) snd sync_volt sync_volt act (sync_out ml mo) limits (sync_obs ml mo)
    P0 P Q0 Q (fun u : list R => length u = 2%nat) valid (ml_n ml) (mo_n mo) 3 3 1); try assumption.
  - intros y Hy. unfold sync_view, cur_idx, eps_idx. destruct (item_total y (ml_n ml + mo_n mo - 1)) as (e & ->); [lia|]. cbn [bind].
    seqt y. destruct (M3 l Hl) as (r & -> & Hr). cbn [bind]. destruct (dq_to_abc_total r e Hr) as (abc & -> & Habc). cbn [bind]. eauto.
  - intros y v u _ _ Hu. apply abc_to_dq_total. lia.
  - intros y v u _ _ Hu. apply abc_to_dq_total. lia.
  - apply (system_equation_total _ 2); assumption.
  - intros y v a c t _ _ Ha Hc. destruct (Hact v a Ha) as (a' & Ea & Ha'). destruct (C4 c a' t Hc Ha') as (c' & ts & E & H). exists a', c', ts. auto.
  - intros y v iv st _ _ Hy Hu Hsup Hp Hst. unfold sync_out, motor_idx, load_idx, cur_idx, eps_idx. seqt (iv_y iv). destruct (M2 l Hl) as (tq & ->). cbn [bind].
    seqt (iv_y iv). seqt (iv_y iv). destruct (dq_to_abc_total l1 (fst v)) as (abc & -> & Habc); [lia|]. cbn [bind].
    destruct (item_total (iv_y iv) (ml_n ml + mo_n mo - 1)) as (e & ->); [lia|]. cbn [bind]. eexists. split; [reflexivity|].
    rewrite !app_length. cbn [length]. lia.
  - intros mech ms u us H1 H2 Hu Hus. unfold sync_obs, cur_idx, eps_idx. destruct (item_total (mech ++ ms) (ml_n ml + mo_n mo - 1)) as (e & ->); [rewrite app_length; lia|].
    cbn [bind]. destruct (abc_to_dq_total u (wrap e)) as (udq & -> & Hudq); [lia|]. cbn [bind].
    destruct (select_seq (mech ++ ms) (mo_nc mo) (ml_n ml)) as (l & -> & Hl); [rewrite app_length; lia|]. cbn [bind].
    destruct (dq_to_abc_total l (wrap e)) as (abc & -> & Habc); [lia|]. cbn [bind]. destruct (M2 ms H2) as (tq & ->). cbn [bind]. eexists. split; [reflexivity|].
    rewrite !app_length. cbn [length]. lia.
Qed.

Lemma scim_drive_total mo : m = 3%nat -> motor_total (fun u : list R => length u = 2%nat) 2 mo -> mo_n mo = 5%nat -> mo_nc mo = 2%nat ->
  length limits = (ml_n ml + 13)%nat ->
  forall ops mech ms x, ready0 limits P0 Q0 x -> length mech = ml_n ml -> length ms = mo_n mo ->
  Forall (op_valid valid (ml_n ml) (mo_n mo)) ops ->
  exists x', run_ok (reset cv sp limits (scim_obs ml mo))
    (simulate cv sp (system_equation ml mo) tau (scim_view ml mo) snd scim_volt scim_volt act (scim_out ml mo) limits)
    (OReset (Ok (mech, ms)) :: ops) x = Some x'.
Proof.
  intros Hm Hmo Hn Hnc Hlim. rewrite Hm in Hcv. destruct Hcv as (C1 & C2 & C3 & C4 & C5). destruct Hsp as (S1 & S2 & S3). pose proof Hmo as (M1 & M2 & M3 & M4 & M5 & M6).
  assert (Hst2 : forall y : list R, length y = (ml_n ml + mo_n mo)%nat -> exists i, select (stator_idx ml) y = Ok i /\ length i = 2%nat).
  { intros y Hy. destruct (select_ok (stator_idx ml) y) as (r & E & Hr & _); [|eauto].
    intros i Hi; destruct Hi as [<- | [<- | []]]; lia. }
  assert (Hfa : forall y : list R, length y = (ml_n ml + mo_n mo)%nat -> exists e, field_angle ml y = Ok e).
  { intros y Hy. unfold field_angle. destruct (item_total y (ml_n ml + 2)) as (a & ->); [lia|]. destruct (item_total y (ml_n ml + 3)) as (b & ->); [lia|]. cbn. eauto. }
  apply (run_total_fresh cv sp (system_equation ml mo) tau (scim_view ml mo) snd scim_volt scim_volt act (scim_out ml mo) limits (scim_obs ml mo)
    P0 P Q0 Q (fun u : list R => length u = 2%nat) valid (ml_n ml) (mo_n mo) 3 3 1); try assumption.
  - intros y Hy. unfold scim_view. destruct (Hfa y Hy) as (e & ->). destruct (Hst2 y Hy) as (i & -> & Hi). cbn [bind].
    destruct (M3 i) as (r & -> & Hr); [lia|]. cbn [bind]. destruct (alphabeta_to_abc_total r Hr) as (abc & -> & Habc). cbn [bind]. eauto.
  - intros y v u _ _ Hu. apply abc_to_alphabeta_total. lia.
  - intros y v u _ _ Hu. apply abc_to_alphabeta_total. lia.
  - apply (system_equation_total _ 2); assumption.
  - intros y v a c t _ _ Ha Hc. destruct (Hact v a Ha) as (a' & Ea & Ha'). destruct (C4 c a' t Hc Ha') as (c' & ts & E & H). exists a', c', ts. auto.
  - intros y v iv st _ _ Hy Hu Hsup Hp Hst. unfold scim_out, motor_idx, load_idx, eps_idx.
    destruct (abc_to_dq_total (iv_u iv) (fst v)) as (udq & -> & Hudq); [lia|]. cbn [bind].
    seqt (iv_y iv). destruct (M2 l Hl) as (tq & ->). cbn [bind]. seqt (iv_y iv). destruct (Hst2 (iv_y iv) Hy) as (i & -> & Hi). cbn [bind].
    destruct (alphabeta_to_dq_total i (fst v) Hi) as (idq & -> & Hidq). cbn [bind].
    destruct (dq_to_abc_total idq (fst v) Hidq) as (abc & -> & Habc). cbn [bind].
    destruct (item_total (iv_y iv) (ml_n ml + mo_n mo - 1)) as (e & ->); [lia|]. cbn [bind]. eexists. split; [reflexivity|].
    rewrite !app_length. cbn [length]. lia.
  - intros mech ms u us H1 H2 Hu Hus. unfold scim_obs, eps_idx.
    assert (Hy : length (mech ++ ms) = (ml_n ml + mo_n mo)%nat) by (rewrite app_length; lia).
    destruct (item_total (mech ++ ms) (ml_n ml + mo_n mo - 1)) as (e & ->); [lia|]. cbn [bind].
    destruct (Hfa _ Hy) as (ef & ->). cbn [bind]. destruct (abc_to_dq_total u ef) as (udq & -> & Hudq); [lia|]. cbn [bind].
    destruct (Hst2 _ Hy) as (i & -> & Hi). cbn [bind]. destruct (alphabeta_to_dq_total i ef Hi) as (idq & -> & Hidq). cbn [bind].
    destruct (dq_to_abc_total idq ef Hidq) as (abc & -> & Habc). cbn [bind]. destruct (M2 ms H2) as (tq & ->). cbn [bind]. eexists. split; [reflexivity|].
    rewrite !app_length. cbn [length]. lia.
Qed.

(** The doubly fed induction motor has no action transformation. *)
Lemma dfim_drive_total mo im : m = 6%nat -> motor_total is_2x2 2 mo -> mo_n mo = 5%nat -> mo_nc mo = 2%nat ->
  length limits = (ml_n ml + 23)%nat ->
  forall ops mech ms x, ready0 limits P0 Q0 x -> length mech = ml_n ml -> length ms = mo_n mo ->
  Forall (op_valid valid' (ml_n ml) (mo_n mo)) ops ->
  exists x', run_ok (reset cv sp limits (dfim_obs ml mo im 3 3))
    (simulate cv sp (system_equation ml mo) tau (dfim_view ml mo im) dfim_cur (dfim_volt 3 3) (dfim_volt 3 3) act_id (dfim_out ml mo im 3 3) limits)
    (OReset (Ok (mech, ms)) :: ops) x = Some x'.
Proof.
  intros Hm Hmo Hn Hnc Hlim. rewrite Hm in Hcv. destruct Hcv as (C1 & C2 & C3 & C4 & C5). destruct Hsp as (S1 & S2 & S3). pose proof Hmo as (M1 & M2 & M3 & M4 & M5 & M6).
  assert (Hst2 : forall y : list R, length y = (ml_n ml + mo_n mo)%nat -> exists i, select (stator_idx ml) y = Ok i /\ length i = 2%nat).
  { intros y Hy. destruct (select_ok (stator_idx ml) y) as (r & E & Hr & _); [|eauto].
    intros i Hi; destruct Hi as [<- | [<- | []]]; lia. }
  assert (Hfa : forall y : list R, length y = (ml_n ml + mo_n mo)%nat -> exists e, field_angle ml y = Ok e).
  { intros y Hy. unfold field_angle. destruct (item_total y (ml_n ml + 2)) as (a & ->); [lia|]. destruct (item_total y (ml_n ml + 3)) as (b & ->); [lia|]. cbn. eauto. }
  assert (Hrot : forall y : list R, length y = (ml_n ml + mo_n mo)%nat -> exists r, rotor_alphabeta ml im y = Ok r /\ length r = 2%nat).
  { intros y Hy. unfold rotor_alphabeta. destruct (item_total y (ml_n ml)) as (a & ->); [lia|]. destruct (item_total y (ml_n ml + 1)) as (b & ->); [lia|].
    destruct (item_total y (ml_n ml + 2)) as (c & ->); [lia|]. destruct (item_total y (ml_n ml + 3)) as (d & ->); [lia|]. cbn. eauto. }
  assert (Hsp3 : forall u : list R, length u = 6%nat -> length (stator_part 3 u) = 3%nat /\ length (rotor_part 3 3 u) = 3%nat).
  { intros u Hu. unfold stator_part, rotor_part. rewrite !firstn_length, skipn_length. lia. }
  apply (run_total_fresh cv sp (system_equation ml mo) tau (dfim_view ml mo im) dfim_cur (dfim_volt 3 3) (dfim_volt 3 3) act_id (dfim_out ml mo im 3 3) limits
    (dfim_obs ml mo im 3 3) P0 P Q0 Q is_2x2 valid' (ml_n ml) (mo_n mo) 6 6 1); try assumption.
  - intros y Hy. unfold dfim_view, eps_idx. destruct (Hfa y Hy) as (e & ->). cbn [bind]. destruct (item_total y (ml_n ml + mo_n mo - 1)) as (el & ->); [lia|]. cbn [bind].
    destruct (Hst2 y Hy) as (i & -> & Hi). cbn [bind]. destruct (M3 i) as (r & -> & Hr); [lia|]. cbn [bind].
    destruct (alphabeta_to_abc_total r Hr) as (abc & -> & Habc). cbn [bind]. destruct (Hrot y Hy) as (ro & -> & Hro). cbn [bind].
    destruct (alphabeta_to_abc_total ro Hro) as (def & -> & Hdef). cbn [bind]. eexists. split; [reflexivity|]. cbn [dfim_cur]. rewrite app_length. lia.
  - intros y [[[ef el] is] ir] u _ _ Hu. destruct (Hsp3 u ltac:(lia)) as [L1 L2]. unfold dfim_volt.
    destruct (abc_to_dq_total (rotor_part 3 3 u) (ef - el) L2) as (udq & -> & Hudq). cbn [bind].
    destruct (abc_to_alphabeta_total (stator_part 3 u) L1) as (us & -> & Hus). cbn [bind].
    destruct (dq_to_alphabeta_total udq ef Hudq) as (ur & -> & Hur). cbn [bind]. eexists. split; [reflexivity|].
    destruct (len2 us Hus) as (a & b & ->). destruct (len2 ur Hur) as (c & d & ->). exists a, b, c, d. reflexivity.
  - intros y [[[ef el] is] ir] u _ _ Hu. destruct (Hsp3 u ltac:(lia)) as [L1 L2]. unfold dfim_volt.
    destruct (abc_to_dq_total (rotor_part 3 3 u) (ef - el) L2) as (udq & -> & Hudq). cbn [bind].
    destruct (abc_to_alphabeta_total (stator_part 3 u) L1) as (us & -> & Hus). cbn [bind].
    destruct (dq_to_alphabeta_total udq ef Hudq) as (ur & -> & Hur). cbn [bind]. eexists. split; [reflexivity|].
    destruct (len2 us Hus) as (a & b & ->). destruct (len2 ur Hur) as (c & d & ->). exists a, b, c, d. reflexivity.
  - apply (system_equation_total _ 2); assumption.
  - intros y v a c t _ _ Ha Hc. destruct (C4 c a t Hc Ha) as (c' & ts & E & H). exists a, c', ts. auto.
  - intros y [[[ef el] is] ir] iv st _ _ Hy Hu Hsup Hp Hst. destruct (Hsp3 (iv_u iv) ltac:(lia)) as [L1 L2]. unfold dfim_out, motor_idx, load_idx, eps_idx.
    destruct (abc_to_dq_total (stator_part 3 (iv_u iv)) ef L1) as (udq & -> & Hudq). cbn [bind].
    destruct (abc_to_dq_total (rotor_part 3 3 (iv_u iv)) (ef - el) L2) as (urdq & -> & Hurdq). cbn [bind].
    seqt (iv_y iv). destruct (M2 l Hl) as (tq & ->). cbn [bind]. seqt (iv_y iv). destruct (Hst2 (iv_y iv) Hy) as (i & -> & Hi). cbn [bind].
    destruct (alphabeta_to_dq_total i ef Hi) as (idq & -> & Hidq). cbn [bind].
    destruct (dq_to_abc_total idq ef Hidq) as (abc & -> & Habc). cbn [bind]. destruct (Hrot (iv_y iv) Hy) as (ro & -> & Hro). cbn [bind].
    destruct (alphabeta_to_dq_total ro ef Hro) as (rdq & -> & Hrdq). cbn [bind].
    destruct (dq_to_abc_total rdq (ef - el) Hrdq) as (def & -> & Hdef). cbn [bind].
    destruct (item_total (iv_y iv) (ml_n ml + mo_n mo - 1)) as (e & ->); [lia|]. cbn [bind]. eexists. split; [reflexivity|].
    rewrite !app_length. cbn [length]. lia.
  - intros mech ms u us H1 H2 Hu Hus. destruct (Hsp3 u ltac:(lia)) as [L1 L2]. unfold dfim_obs, eps_idx.
    assert (Hy : length (mech ++ ms) = (ml_n ml + mo_n mo)%nat) by (rewrite app_length; lia).
    destruct (item_total (mech ++ ms) (ml_n ml + mo_n mo - 1)) as (e & ->); [lia|]. cbn [bind].
    destruct (Hfa _ Hy) as (ef & ->). cbn [bind].
    destruct (abc_to_dq_total (stator_part 3 u) (wrap ef) L1) as (udq & -> & Hudq). cbn [bind].
    destruct (abc_to_dq_total (rotor_part 3 3 u) (wrap ef - wrap e) L2) as (urdq & -> & Hurdq). cbn [bind].
    destruct (Hst2 _ Hy) as (i & -> & Hi). cbn [bind]. destruct (alphabeta_to_dq_total i (wrap ef) Hi) as (idq & -> & Hidq). cbn [bind].
    destruct (dq_to_abc_total idq (wrap ef) Hidq) as (abc & -> & Habc). cbn [bind]. destruct (Hrot _ Hy) as (ro & -> & Hro). cbn [bind].
    destruct (alphabeta_to_dq_total ro (wrap ef - wrap e) Hro) as (rdq & -> & Hrdq). cbn [bind].
    destruct (dq_to_abc_total rdq (wrap ef - wrap e) Hrdq) as (def & -> & Hdef). cbn [bind]. destruct (M2 ms H2) as (tq & ->). cbn [bind]. eexists. split; [reflexivity|].
    rewrite !app_length. cbn [length]. lia.
Qed.
End Drives.
