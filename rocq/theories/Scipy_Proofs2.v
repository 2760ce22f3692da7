(** More proofs about systems with any solver: time, and no step raises. *)
From Verif Require Import PyBaseFacts PyDictFacts Conv_Model Conv_Spec Conv_Proofs Conv_Proofs2 Solver_Model Solver_Spec Solver_Proofs Supply_Model
  Transform_Model Transform_Proofs Motor_Model Motor_Spec Motor_Proofs Loads_Model PhysSys_Model PhysSys_Spec PhysSys_Proofs PhysSys_Proofs2
  Scipy_Model Scipy_Spec Scipy_Proofs.
Local Open Scope list_scope. Local Open Scope R_scope.

(** ** Time *)
Section Time.
Context {C S A U V E J : Type} (cv : conv_if C A) (sp : supply_if S) (so : solver_if E U J) (tau : R).
Hypothesis HP : punctual so.
Lemma advance_punctual p t e e' y : advance_solver so p t e = (e', Ok y) -> so_t so e' = Ok t /\ so_y so e' = Ok y.
Proof.
  unfold advance_solver. destruct (so_params so p e) as [e1 [u|er]]; [|discriminate]. intros H.
  pose proof (pu_integrate so HP t e1 y). rewrite H in H0. exact (H0 eq_refl).
Qed.
Lemma g_interval_inv vv i (x x' : gsys C S E) t iv : g_interval cv sp so vv i x t = (x', Ok iv) ->
  gs_t x' = gs_t x /\ gs_k x' = gs_k x /\ gs_state x' = gs_state x /\ so_t so (gs_e x') = Ok t /\ so_y so (gs_e x') = Ok (iv_y iv).
Proof.
  unfold g_interval. destruct (cv_i_sup cv (gs_c x) i) as [isup|e]; [|discriminate].
  destruct (sp_get sp (gs_s x) (gs_t x) isup) as [s' [us|e]]; cbn [bind]; [|discriminate]. destruct (so_t so (gs_e x)) as [now|e]; cbn [bind]; [|discriminate].
  destruct (cv_convert cv (gs_c (g_with_s s' x)) i now) as [c' [u|e]]; [|discriminate].
  destruct (vv (scale_voltages u us)) as [p|e]; [|discriminate]. destruct (advance_solver so p t (gs_e (g_with_c c' (g_with_s s' x)))) as [e' [y|er]] eqn:Ea; cbn [bind]; [|discriminate].
  intros H. injection H as <- <-. cbn. destruct (advance_punctual _ _ _ _ _ Ea). auto.
Qed.
Context (view : list R -> res V) (cur : V -> list R) (volt volt_last : V -> list R -> res U).
Lemma g_intervals_inv ts : forall v (x x' : gsys C S E) v', g_intervals cv sp so view cur volt v x ts = (x', Ok v') ->
  gs_t x' = gs_t x /\ gs_k x' = gs_k x /\ gs_state x' = gs_state x.
Proof.
  induction ts as [|t ts IH]; intros v x x' v'; cbn [g_intervals]; [intros H; injection H as <- _; auto|].
  destruct (g_interval cv sp so (volt v) (cur v) x t) as [x1 [iv|e]] eqn:E1; [|discriminate]. destruct (view (iv_y iv)) as [v1|e]; [|discriminate].
  intros H. apply IH in H. apply g_interval_inv in E1. intuition congruence.
Qed.
Context (act : V -> A -> res A) (out : V -> interval U -> list R -> res (list R)) (limits : list lim).
Lemma g_simulate_inv a (x x' : gsys C S E) o : g_simulate cv sp so tau view cur volt volt_last act out limits a x = (x', Ok o) ->
  gs_t x' = gs_t x + tau /\ gs_k x' = Datatypes.S (gs_k x) /\ so_t so (gs_e x') = Ok (gs_t x').
Proof.
  unfold g_simulate. destruct (do y0 <- so_y so (gs_e x); do v <- view y0; do a' <- act v a; Ok (v, a')) as [[v a']|e]; [|discriminate].
  destruct (cv_set_action cv (gs_c x) a' (gs_t x)) as [c' [ts|e]]; [|discriminate].
  destruct (g_intervals cv sp so view cur volt v (g_with_c c' x) (removelast ts)) as [x2 [v2|e]] eqn:E2; [|discriminate].
  destruct (g_interval cv sp so (volt_last v2) (cur v2) x2 (gs_t x2 + tau)) as [x3 [iv|e]] eqn:E3; cbn [bind]; [|discriminate].
  apply g_intervals_inv in E2. destruct E2 as (T2 & K2 & _). apply g_interval_inv in E3. destruct E3 as (T3 & K3 & _ & S3 & _). rewrite S3. cbn [bind gs_state].
  destruct (out v2 iv (gs_state x3)) as [st|e]; [|discriminate]. intros H. injection H as <- _. cbn in *. rewrite S3, T2, K3, K2. auto.
Qed.
Context (obs : list R -> list R -> list R -> list R -> res (list R)).
Lemma g_reset_inv init (x x' : gsys C S E) o : g_reset cv sp so limits obs init x = (x', Ok o) -> gs_t x' = 0 /\ gs_k x' = 0%nat /\ so_t so (gs_e x') = Ok 0.
Proof.
  unfold g_reset. destruct init as [[mech ms]|e]; [|discriminate]. destruct (sp_reset sp (gs_s x)) as [s' [us|e]]; [|discriminate].
  destruct (cv_reset cv (gs_c (g_with_s s' x))) as [c' u]. destruct (do u0 <- u; obs mech ms (scale_voltages u0 us) us) as [st|e]; [|discriminate].
  destruct (so_initial so (mech ++ ms) 0 (gs_e (g_with_c c' (g_with_s s' x)))) as [e' [[]|er]] eqn:Ei; [|discriminate]. intros H. injection H as <- _. cbn.
  pose proof (pu_initial so HP (mech ++ ms) 0 (gs_e x)) as Hi. cbn in Ei. rewrite Ei in Hi. destruct (Hi eq_refl). auto.
Qed.
Lemma g_run_time ops : forall (x x' : gsys C S E) n, gs_t x = INR n * tau -> gs_k x = n -> so_t so (gs_e x) = Ok (gs_t x) ->
  run_ok (g_reset cv sp so limits obs) (g_simulate cv sp so tau view cur volt volt_last act out limits) ops x = Some x' ->
  gs_k x' = steps_since ops n /\ gs_t x' = INR (steps_since ops n) * tau /\ so_t so (gs_e x') = Ok (gs_t x').
Proof.
  induction ops as [|[i|a] ops IH]; intros x x' n Ht Hk Hs; cbn [run_ok steps_since]; [intros H; injection H as <-; auto| |].
  - destruct (g_reset cv sp so limits obs i x) as [x1 [o|e]] eqn:E1; [|discriminate]. apply g_reset_inv in E1. destruct E1 as (T & K & Z). apply IH; [rewrite T; cbn; ring|exact K|congruence].
  - destruct (g_simulate cv sp so tau view cur volt volt_last act out limits a x) as [x1 [o|e]] eqn:E1; [|discriminate]. apply g_simulate_inv in E1. destruct E1 as (T & K & Z).
    apply IH; [rewrite T, Ht, S_INR; ring|congruence|exact Z].
Qed.
End Time.

(** ** No step raises *)
Section Total.
Context {C S A U V E J : Type}.
Context (cv : conv_if C A) (sp : supply_if S) (so : solver_if E U J) (tau : R).
Context (view : list R -> res V) (cur : V -> list R) (volt volt_last : V -> list R -> res U).
Context (act : V -> A -> res A) (out : V -> interval U -> list R -> res (list R)) (limits : list lim).
Context (obs : list R -> list R -> list R -> list R -> res (list R)).
Context (P0 P : C -> Prop) (B Qe : E -> Prop) (Q0 Q : S -> Prop) (PP : U -> Prop) (valid : A -> Prop) (nl nm m k j : nat).
Notation n := (nl + nm)%nat.
Hypothesis HP : forall c, P c -> P0 c.
Hypothesis HQ : forall s, Q s -> Q0 s.
Hypothesis Hview : forall y, length y = n -> exists v, view y = Ok v /\ length (cur v) = m.
Hypothesis Hisup : forall c i, P c -> length i = m -> exists r, cv_i_sup cv c i = Ok r.
Hypothesis Hconv : forall c i t, P c -> length i = m -> exists c' u, cv_convert cv c i t = (c', Ok u) /\ P c' /\ length u = k.
Hypothesis Hget : forall s t i, Q s -> exists s' us, sp_get sp s t i = (s', Ok us) /\ Q s' /\ length us = j.
Hypothesis Hvolt : forall y v u, length y = n -> view y = Ok v -> length u = (k * j)%nat -> exists p, volt v u = Ok p /\ PP p.
Hypothesis Hvoltl : forall y v u, length y = n -> view y = Ok v -> length u = (k * j)%nat -> exists p, volt_last v u = Ok p /\ PP p.
Hypothesis Hso : solver_total so PP n B Qe.
Hypothesis Hset : forall y v a c t, length y = n -> view y = Ok v -> valid a -> P0 c ->
  exists a' c' ts, act v a = Ok a' /\ cv_set_action cv c a' t = (c', Ok ts) /\ P c'.
Hypothesis Hout : forall y v iv st, length y = n -> view y = Ok v -> length (iv_y iv) = n -> length (iv_u iv) = (k * j)%nat ->
  length (iv_sup iv) = j -> PP (iv_par iv) -> length st = length limits ->
  exists o, out v iv st = Ok o /\ length o = length limits.
Hypothesis Hcreset : forall c, P0 c -> exists c' u, cv_reset cv c = (c', Ok u) /\ P0 c' /\ length u = k.
Hypothesis Hsreset : forall s, Q0 s -> exists s' us, sp_reset sp s = (s', Ok us) /\ Q s' /\ length us = j.
Hypothesis Hobs : forall mech ms u us, length mech = nl -> length ms = nm -> length u = (k * j)%nat -> length us = j ->
  exists o, obs mech ms u us = Ok o /\ length o = length limits.

Definition g_ready0 (x : gsys C S E) : Prop := P0 (gs_c x) /\ Q0 (gs_s x) /\ B (gs_e x) /\ length (gs_state x) = length limits.
Definition g_ready (x : gsys C S E) : Prop := P0 (gs_c x) /\ Q (gs_s x) /\ Qe (gs_e x) /\ length (gs_state x) = length limits.

Lemma g_interval_total vv i (x : gsys C S E) t : P (gs_c x) -> Q (gs_s x) -> Qe (gs_e x) -> length i = m ->
  (forall u, length u = (k * j)%nat -> exists p, vv u = Ok p /\ PP p) ->
  exists x' iv, g_interval cv sp so vv i x t = (x', Ok iv) /\ P (gs_c x') /\ Q (gs_s x') /\ Qe (gs_e x') /\
    so_y so (gs_e x') = Ok (iv_y iv) /\ length (iv_y iv) = n /\ length (iv_u iv) = (k * j)%nat /\ length (iv_sup iv) = j /\ PP (iv_par iv) /\
    gs_state x' = gs_state x.
Proof.
  intros Hc Hs He Hi Hvv. unfold g_interval.
  destruct (Hisup (gs_c x) i Hc Hi) as [r ->]. destruct (Hget (gs_s x) (gs_t x) r Hs) as (s' & us & -> & Hs' & Hus). cbn [bind].
  destruct (st_t _ _ _ _ _ Hso _ He) as (now & ->). cbn [bind g_with_s gs_c]. destruct (Hconv (gs_c x) i now Hc Hi) as (c' & u & -> & Hc' & Hu).
  assert (Hl : length (scale_voltages u us) = (k * j)%nat) by (rewrite scale_length; congruence).
  destruct (Hvv _ Hl) as (p & -> & Hp). cbn [g_with_c g_with_s gs_e].
  destruct (st_advance _ _ _ _ _ Hso p t _ He Hp) as (e' & y & -> & Hy & He' & Hsy). cbn [bind]. eexists _, _. split; [reflexivity|]. cbn. auto 12.
Qed.
Lemma g_intervals_total ts : forall v (x : gsys C S E) y, P (gs_c x) -> Q (gs_s x) -> Qe (gs_e x) ->
  so_y so (gs_e x) = Ok y -> length y = n -> view y = Ok v ->
  exists x' v' y', g_intervals cv sp so view cur volt v x ts = (x', Ok v') /\ P (gs_c x') /\ Q (gs_s x') /\ Qe (gs_e x') /\
    so_y so (gs_e x') = Ok y' /\ length y' = n /\ view y' = Ok v' /\ gs_state x' = gs_state x.
Proof.
  induction ts as [|t ts IH]; intros v x y Hc Hs He Hy Hly Hv; cbn [g_intervals].
  - exists x, v, y. auto 10.
  - destruct (Hview y Hly) as (v0 & Hv0 & Hcur). assert (v0 = v) by congruence. subst v0.
    destruct (g_interval_total (volt v) (cur v) x t Hc Hs He Hcur (fun u => Hvolt y v u Hly Hv))
      as (x1 & iv & -> & H1 & H2 & H3 & H4 & H5 & _ & _ & _ & H6).
    destruct (Hview _ H5) as (v1 & Hv1 & _). rewrite Hv1.
    destruct (IH v1 x1 (iv_y iv) H1 H2 H3 H4 H5 Hv1) as (x' & v' & y' & -> & G1 & G2 & G3 & G4 & G5 & G6 & G7).
    exists x', v', y'. rewrite G7. auto 10.
Qed.
Lemma g_simulate_total a (x : gsys C S E) : g_ready x -> valid a ->
  exists x' o, g_simulate cv sp so tau view cur volt volt_last act out limits a x = (x', Ok o) /\ g_ready x'.
Proof.
  intros (Hc & Hs & He & Hst) Ha. unfold g_simulate. destruct (st_y _ _ _ _ _ Hso _ He) as (y & Hy & Hly). rewrite Hy. cbn [bind].
  destruct (Hview y Hly) as (v & Hv & _). rewrite Hv. cbn [bind].
  destruct (Hset y v a (gs_c x) (gs_t x) Hly Hv Ha Hc) as (a' & c' & ts & -> & E1 & Hc'). cbn [bind]. rewrite E1.
  destruct (g_intervals_total (removelast ts) v (g_with_c c' x) y Hc' Hs He Hy Hly Hv) as (x2 & v2 & y2 & -> & G1 & G2 & G3 & G4 & G5 & G6 & G7).
  destruct (Hview y2 G5) as (v0 & Hv0 & Hcur). assert (v0 = v2) by congruence. subst v0.
  destruct (g_interval_total (volt_last v2) (cur v2) x2 (gs_t x2 + tau) G1 G2 G3 Hcur (fun u => Hvoltl y2 v2 u G5 G6))
      as (x3 & iv & -> & H1 & H2 & H3 & H4 & H5 & H6 & H7 & H8 & H9). cbn [bind].
  destruct (st_t _ _ _ _ _ Hso _ H3) as (now & ->). cbn [bind gs_state gs_c gs_s gs_e].
  assert (Hl : length (gs_state x3) = length limits) by (rewrite H9, G7; exact Hst).
  destruct (Hout y2 v2 iv (gs_state x3) G5 G6 H5 H6 H7 H8 Hl) as (st & -> & Hlst).
  destruct (np_div_total limits st Hlst) as [o Ho]. rewrite Ho. eexists _, _. split; [reflexivity|]. unfold g_ready. cbn. auto 10.
Qed.
Lemma g_ready_0 x : g_ready x -> g_ready0 x.
Proof. intros (H1 & H2 & H3 & H4). split; [exact H1|]. split; [now apply HQ|]. split; [now apply (st_weak _ _ _ _ _ Hso)|exact H4]. Qed.
Lemma g_reset_total mech ms (x : gsys C S E) : g_ready0 x -> length mech = nl -> length ms = nm ->
  exists x' o, g_reset cv sp so limits obs (Ok (mech, ms)) x = (x', Ok o) /\ g_ready x'.
Proof.
  intros (Hc & Hs & Hn & Hst) H1 H2. unfold g_reset. destruct (Hsreset _ Hs) as (s' & us & -> & Hs' & Hus).
  cbn [g_with_s gs_c]. destruct (Hcreset _ Hc) as (c' & u & -> & Hc' & Hu). cbn [bind].
  destruct (Hobs mech ms (scale_voltages u us) us H1 H2 ltac:(rewrite scale_length; congruence) Hus) as (st & -> & Hl).
  cbn [g_with_c g_with_s gs_e gs_c gs_s gs_state]. destruct (st_initial _ _ _ _ _ Hso (mech ++ ms) 0 (gs_e x) Hn) as (e' & -> & He'); [rewrite app_length; lia|].
  destruct (np_div_total limits st Hl) as [o Ho]. rewrite Ho. eexists _, _. split; [reflexivity|]. unfold g_ready. cbn. auto.
Qed.
Lemma g_run_total ops : forall x : gsys C S E, g_ready x -> Forall (op_valid valid nl nm) ops ->
  exists x', run_ok (g_reset cv sp so limits obs) (g_simulate cv sp so tau view cur volt volt_last act out limits) ops x = Some x' /\ g_ready x'.
Proof.
  induction ops as [|o ops IH]; intros x Hr Hv; cbn [run_ok]; [eauto|]. inversion Hv as [|? ? Ho Hv']; subst.
  destruct o as [[[mech ms]|]|a]; cbn in Ho; [|contradiction|].
  - destruct (g_reset_total mech ms x (g_ready_0 x Hr) (proj1 Ho) (proj2 Ho)) as (x1 & o & -> & H1). now apply IH.
  - destruct (g_simulate_total a x Hr Ho) as (x1 & o & -> & H1). now apply IH.
Qed.
Lemma g_run_total_fresh ops mech ms (x : gsys C S E) : g_ready0 x -> length mech = nl -> length ms = nm -> Forall (op_valid valid nl nm) ops ->
  exists x', run_ok (g_reset cv sp so limits obs) (g_simulate cv sp so tau view cur volt volt_last act out limits) (OReset (Ok (mech, ms)) :: ops) x = Some x'.
Proof.
  intros Hr H1 H2 Hv. cbn [run_ok]. destruct (g_reset_total mech ms x Hr H1 H2) as (x1 & o & -> & G1).
  destruct (g_run_total ops x1 G1 Hv) as (x' & -> & _). eauto.
Qed.
End Total.

(** ** The drives *)
Ltac seqt y := match goal with |- context [select (seq ?a ?b) y] =>
  let l := fresh "l" in let E := fresh "E" in let H := fresh "Hl" in
  destruct (select_seq y b a) as (l & E & H); [lia|]; rewrite E; cbn [bind] end.

Section Drives.
Context {C S A E J : Type} (cv : conv_if C A) (sp : supply_if S) (tau : R) (ml : mload) (limits : list lim).
Context (P0 P : C -> Prop) (B Qe : E -> Prop) (valid' : A -> Prop) (m : nat) (Q0 Q : S -> Prop).
Hypothesis Hcv : conv_total cv P0 P valid' m.
Hypothesis Hsp : supply_total sp Q0 Q 1.
Hypothesis Hml : load_total ml.

Lemma dc_drive_any mo (so : solver_if E (list R) J) : solver_total so (fun u : list R => length u = m) (ml_n ml + mo_n mo) B Qe -> motor_total (fun u : list R => length u = m) m mo -> mo_n mo = mo_nc mo ->
  length limits = (ml_n ml + 1 + mo_nc mo + m + 1)%nat ->
  forall ops mech ms x, g_ready0 limits P0 B Q0 x -> length mech = ml_n ml -> length ms = mo_n mo ->
  Forall (op_valid valid' (ml_n ml) (mo_n mo)) ops ->
  exists x', run_ok (g_reset cv sp so limits (dc_obs ml mo))
    (g_simulate cv sp so tau (dc_view ml mo) dc_cur dc_volt dc_volt act_id (dc_out ml mo m 1) limits)
    (OReset (Ok (mech, ms)) :: ops) x = Some x'.
Proof.
  intros Hso Hmo Hn Hlim. destruct Hcv as (C1 & C2 & C3 & C4 & C5). destruct Hsp as (S1 & S2 & S3). pose proof Hmo as (M1 & M2 & M3 & M4 & M5 & M6).
  apply (g_run_total_fresh cv sp so tau (dc_view ml mo) dc_cur dc_volt dc_volt act_id (dc_out ml mo m 1) limits (dc_obs ml mo)
    P0 P B Qe Q0 Q (fun u : list R => length u = m) valid' (ml_n ml) (mo_n mo) m m 1); try assumption.
  - intros y Hy. unfold dc_view, cur_idx. seqt y. destruct (M3 l Hl) as (r & Er & Hr). exists r. auto.
  - intros y v u _ _ Hu. exists u. rewrite Hu. split; [reflexivity|lia].
  - intros y v u _ _ Hu. exists u. rewrite Hu. split; [reflexivity|lia].
  - intros y v a c t _ _ Ha Hc. destruct (C4 c a t Hc Ha) as (c' & ts & Et & H). exists a, c', ts. auto.
  - intros y v iv st _ _ Hy Hu Hsup Hp Hst. unfold dc_out, motor_idx. seqt (iv_y iv). destruct (M2 l Hl) as (tq & ->). cbn [bind].
    unfold load_idx, dc_torque_idx, dc_currents_idx, dc_voltages_idx, dc_usup_idx, dc_torque_idx.
    destruct (put_total (seq 0 (ml_n ml)) (firstn (ml_n ml) (iv_y iv)) st) as (s1 & -> & L1);
      [apply seq_lt; lia|rewrite seq_length, firstn_length; lia|]. cbn [bind].
    destruct (put_total [ml_n ml] [tq] s1) as (s2 & -> & L2); [constructor; [lia|constructor]|reflexivity|]. cbn [bind].
    destruct (select_ok (mo_cidx mo) (skipn (ml_n ml) (iv_y iv))) as (cs & -> & Hcs & _).
    { intros i Hi. rewrite Forall_forall in M5. specialize (M5 i Hi). rewrite skipn_length. lia. }
    cbn [bind].
    destruct (put_total (seq (ml_n ml + 1) (mo_nc mo)) cs s2) as (s3 & -> & L3); [apply seq_lt; lia|rewrite seq_length; lia|]. cbn [bind].
    destruct (put_total (seq (ml_n ml + 1 + mo_nc mo) m) (iv_u iv) s3) as (s4 & -> & L4); [apply seq_lt; lia|rewrite seq_length; lia|]. cbn [bind].
    destruct (put_total (seq (ml_n ml + 1 + mo_nc mo + m) 1) (iv_sup iv) s4) as (s5 & -> & L5); [apply seq_lt; lia|rewrite seq_length; lia|].
    exists s5. split; [reflexivity|lia].
  - intros mech ms u us H1 H2 Hu Hus. unfold dc_obs. destruct (M2 ms H2) as (tq & ->). cbn [bind].
    destruct (select_ok (mo_cidx mo) ms) as (cs & -> & Hcs & _). { intros i Hi. rewrite Forall_forall in M5. specialize (M5 i Hi). lia. }
    cbn [bind]. eexists. split; [reflexivity|]. rewrite !app_length, firstn_length, app_length. cbn [length]. lia.
Qed.

(** Three phase drives with one motor voltage vector. *)
Context (act : R * list R -> A -> res A) (valid : A -> Prop).
Hypothesis Hact : forall v a, valid a -> exists a', act v a = Ok a' /\ valid' a'.

Lemma sync_drive_any mo (so : solver_if E (list R) J) : solver_total so (fun u : list R => length u = 2%nat) (ml_n ml + mo_n mo) B Qe -> m = 3%nat -> motor_total (fun u : list R => length u = 2%nat) 2 mo -> mo_n mo = 3%nat -> mo_nc mo = 2%nat ->
  length limits = (ml_n ml + 13)%nat ->
  forall ops mech ms x, g_ready0 limits P0 B Q0 x -> length mech = ml_n ml -> length ms = mo_n mo ->
  Forall (op_valid valid (ml_n ml) (mo_n mo)) ops ->
  exists x', run_ok (g_reset cv sp so limits (sync_obs ml mo))
    (g_simulate cv sp so tau (sync_view ml mo) snd sync_volt sync_volt act (sync_out ml mo) limits)
    (OReset (Ok (mech, ms)) :: ops) x = Some x'.
Proof.
  intros Hso Hm Hmo Hn Hnc Hlim. rewrite Hm in Hcv. destruct Hcv as (C1 & C2 & C3 & C4 & C5). destruct Hsp as (S1 & S2 & S3). pose proof Hmo as (M1 & M2 & M3 & M4 & M5 & M6).
  apply (g_run_total_fresh cv sp so tau (sync_view ml mo) snd sync_volt sync_volt act (sync_out ml mo) limits (sync_obs ml mo)
    P0 P B Qe Q0 Q (fun u : list R => length u = 2%nat) valid (ml_n ml) (mo_n mo) 3 3 1); try assumption.
  - intros y Hy. unfold sync_view, cur_idx, eps_idx. destruct (item_total y (ml_n ml + mo_n mo - 1)) as (e & ->); [lia|]. cbn [bind].
    seqt y. destruct (M3 l Hl) as (r & -> & Hr). cbn [bind]. destruct (dq_to_abc_total r e Hr) as (abc & -> & Habc). cbn [bind]. eauto.
  - intros y v u _ _ Hu. apply abc_to_dq_total. lia.
  - intros y v u _ _ Hu. apply abc_to_dq_total. lia.
  - intros y v a c t _ _ Ha Hc. destruct (Hact v a Ha) as (a' & Ea & Ha'). destruct (C4 c a' t Hc Ha') as (c' & ts & Et & H). exists a', c', ts. auto.
  - intros y v iv st _ _ Hy Hu Hsup Hp Hst. unfold sync_out, motor_idx, load_idx, cur_idx, eps_idx. seqt (iv_y iv). destruct (M2 l Hl) as (tq & ->). cbn [bind].
    seqt (iv_y iv). seqt (iv_y iv). destruct (dq_to_abc_total l1 (fst v)) as (abc & -> & Habc); [lia|]. cbn [bind].
    destruct (item_total (iv_y iv) (ml_n ml + mo_n mo - 1)) as (e & ->); [lia|]. cbn [bind]. eexists. split; [reflexivity|].
    rewrite !app_length. cbn [length]. lia.
  - intros mech ms u us H1 H2 Hu Hus. unfold sync_obs, cur_idx, eps_idx. destruct (item_total (mech ++ ms) (ml_n ml + mo_n mo - 1)) as (e & ->); [rewrite app_length; lia|].
    cbn [bind]. destruct (abc_to_dq_total u (wrap e)) as (udq & -> & Hudq); [lia|]. cbn [bind].
    destruct (select_seq (mech ++ ms) (mo_nc mo) (ml_n ml)) as (l & -> & Hl); [rewrite app_length; lia|]. cbn [bind].
    destruct (dq_to_abc_total l (wrap e)) as (abc & -> & Habc); [lia|]. cbn [bind]. destruct (M2 ms H2) as (tq & ->). cbn [bind]. eexists. split; [reflexivity|].
    rewrite !app_length. cbn [length]. lia.
Qed.

Lemma scim_drive_any mo (so : solver_if E (list R) J) : solver_total so (fun u : list R => length u = 2%nat) (ml_n ml + mo_n mo) B Qe -> m = 3%nat -> motor_total (fun u : list R => length u = 2%nat) 2 mo -> mo_n mo = 5%nat -> mo_nc mo = 2%nat ->
  length limits = (ml_n ml + 13)%nat ->
  forall ops mech ms x, g_ready0 limits P0 B Q0 x -> length mech = ml_n ml -> length ms = mo_n mo ->
  Forall (op_valid valid (ml_n ml) (mo_n mo)) ops ->
  exists x', run_ok (g_reset cv sp so limits (scim_obs ml mo))
    (g_simulate cv sp so tau (scim_view ml mo) snd scim_volt scim_volt act (scim_out ml mo) limits)
    (OReset (Ok (mech, ms)) :: ops) x = Some x'.
Proof.
  intros Hso Hm Hmo Hn Hnc Hlim. rewrite Hm in Hcv. destruct Hcv as (C1 & C2 & C3 & C4 & C5). destruct Hsp as (S1 & S2 & S3). pose proof Hmo as (M1 & M2 & M3 & M4 & M5 & M6).
  assert (Hst2 : forall y : list R, length y = (ml_n ml + mo_n mo)%nat -> exists i, select (stator_idx ml) y = Ok i /\ length i = 2%nat).
  { intros y Hy. destruct (select_ok (stator_idx ml) y) as (r & Er & Hr & _); [|eauto].
    intros i Hi; destruct Hi as [<- | [<- | []]]; lia. }
  assert (Hfa : forall y : list R, length y = (ml_n ml + mo_n mo)%nat -> exists e, field_angle ml y = Ok e).
  { intros y Hy. unfold field_angle. destruct (item_total y (ml_n ml + 2)) as (a & ->); [lia|]. destruct (item_total y (ml_n ml + 3)) as (b & ->); [lia|]. cbn. eauto. }
  apply (g_run_total_fresh cv sp so tau (scim_view ml mo) snd scim_volt scim_volt act (scim_out ml mo) limits (scim_obs ml mo)
    P0 P B Qe Q0 Q (fun u : list R => length u = 2%nat) valid (ml_n ml) (mo_n mo) 3 3 1); try assumption.
  - intros y Hy. unfold scim_view. destruct (Hfa y Hy) as (e & ->). destruct (Hst2 y Hy) as (i & -> & Hi). cbn [bind].
    destruct (M3 i) as (r & -> & Hr); [lia|]. cbn [bind]. destruct (alphabeta_to_abc_total r Hr) as (abc & -> & Habc). cbn [bind]. eauto.
  - intros y v u _ _ Hu. apply abc_to_alphabeta_total. lia.
  - intros y v u _ _ Hu. apply abc_to_alphabeta_total. lia.
  - intros y v a c t _ _ Ha Hc. destruct (Hact v a Ha) as (a' & Ea & Ha'). destruct (C4 c a' t Hc Ha') as (c' & ts & Et & H). exists a', c', ts. auto.
  - intros y v iv st _ _ Hy Hu Hsup Hp Hst. unfold scim_out, motor_idx, load_idx, eps_idx.
    destruct (abc_to_dq_total (iv_u iv) (fst v)) as (udq & -> & Hudq); [lia|]. cbn [bind].
    seqt (iv_y iv). destruct (M2 l Hl) as (tq & ->). cbn [bind]. seqt (iv_y iv). destruct (Hst2 (iv_y iv) Hy) as (i & -> & Hi). cbn [bind].
    destruct (alphabeta_to_dq_total i (fst v) Hi) as (idq & -> & Hidq). cbn [bind].
    destruct (dq_to_abc_total idq (fst v) Hidq) as (abc & -> & Habc). cbn [bind].
    destruct (item_total (iv_y iv) (ml_n ml + mo_n mo - 1)) as (e & ->); [lia|]. cbn [bind]. eexists. split; [reflexivity|].
    rewrite !app_length. cbn [length]. lia.
  - intros mech ms u us H1 H2 Hu Hus. unfold scim_obs, eps_idx.
    assert (Hy : length (mech ++ ms) = (ml_n ml + mo_n mo)%nat) by (rewrite app_length; lia).
    destruct (item_total (mech ++ ms) (ml_n ml + mo_n mo - 1)) as (e & ->); [lia|]. cbn [bind].
    destruct (Hfa _ Hy) as (ef & ->). cbn [bind]. destruct (abc_to_dq_total u ef) as (udq & -> & Hudq); [lia|]. cbn [bind].
    destruct (Hst2 _ Hy) as (i & -> & Hi). cbn [bind]. destruct (alphabeta_to_dq_total i ef Hi) as (idq & -> & Hidq). cbn [bind].
    destruct (dq_to_abc_total idq ef Hidq) as (abc & -> & Habc). cbn [bind]. destruct (M2 ms H2) as (tq & ->). cbn [bind]. eexists. split; [reflexivity|].
    rewrite !app_length. cbn [length]. lia.
Qed.

(** The doubly fed induction motor has no action transformation. *)
Lemma dfim_drive_any mo im (so : solver_if E (list (list R)) J) : solver_total so is_2x2 (ml_n ml + mo_n mo) B Qe -> m = 6%nat -> motor_total is_2x2 2 mo -> mo_n mo = 5%nat -> mo_nc mo = 2%nat ->
  length limits = (ml_n ml + 23)%nat ->
  forall ops mech ms x, g_ready0 limits P0 B Q0 x -> length mech = ml_n ml -> length ms = mo_n mo ->
  Forall (op_valid valid' (ml_n ml) (mo_n mo)) ops ->
  exists x', run_ok (g_reset cv sp so limits (dfim_obs ml mo im 3 3))
    (g_simulate cv sp so tau (dfim_view ml mo im) dfim_cur (dfim_volt 3 3) (dfim_volt 3 3) act_id (dfim_out ml mo im 3 3) limits)
    (OReset (Ok (mech, ms)) :: ops) x = Some x'.
Proof.
  intros Hso Hm Hmo Hn Hnc Hlim. rewrite Hm in Hcv. destruct Hcv as (C1 & C2 & C3 & C4 & C5). destruct Hsp as (S1 & S2 & S3). pose proof Hmo as (M1 & M2 & M3 & M4 & M5 & M6).
  assert (Hst2 : forall y : list R, length y = (ml_n ml + mo_n mo)%nat -> exists i, select (stator_idx ml) y = Ok i /\ length i = 2%nat).
  { intros y Hy. destruct (select_ok (stator_idx ml) y) as (r & Er & Hr & _); [|eauto].
    intros i Hi; destruct Hi as [<- | [<- | []]]; lia. }
  assert (Hfa : forall y : list R, length y = (ml_n ml + mo_n mo)%nat -> exists e, field_angle ml y = Ok e).
  { intros y Hy. unfold field_angle. destruct (item_total y (ml_n ml + 2)) as (a & ->); [lia|]. destruct (item_total y (ml_n ml + 3)) as (b & ->); [lia|]. cbn. eauto. }
  assert (Hrot : forall y : list R, length y = (ml_n ml + mo_n mo)%nat -> exists r, rotor_alphabeta ml im y = Ok r /\ length r = 2%nat).
  { intros y Hy. unfold rotor_alphabeta. destruct (item_total y (ml_n ml)) as (a & ->); [lia|]. destruct (item_total y (ml_n ml + 1)) as (b & ->); [lia|].
    destruct (item_total y (ml_n ml + 2)) as (c & ->); [lia|]. destruct (item_total y (ml_n ml + 3)) as (d & ->); [lia|]. cbn. eauto. }
  assert (Hsp3 : forall u : list R, length u = 6%nat -> length (stator_part 3 u) = 3%nat /\ length (rotor_part 3 3 u) = 3%nat).
  { intros u Hu. unfold stator_part, rotor_part. rewrite !firstn_length, skipn_length. lia. }
  apply (g_run_total_fresh cv sp so tau (dfim_view ml mo im) dfim_cur (dfim_volt 3 3) (dfim_volt 3 3) act_id (dfim_out ml mo im 3 3) limits
    (dfim_obs ml mo im 3 3) P0 P B Qe Q0 Q is_2x2 valid' (ml_n ml) (mo_n mo) 6 6 1); try assumption.
  - intros y Hy. unfold dfim_view, eps_idx. destruct (Hfa y Hy) as (e & ->). cbn [bind]. destruct (item_total y (ml_n ml + mo_n mo - 1)) as (el & ->); [lia|]. cbn [bind].
    destruct (Hst2 y Hy) as (i & -> & Hi). cbn [bind]. destruct (M3 i) as (r & -> & Hr); [lia|]. cbn [bind].
    destruct (alphabeta_to_abc_total r Hr) as (abc & -> & Habc). cbn [bind]. destruct (Hrot y Hy) as (ro & -> & Hro). cbn [bind].
    destruct (alphabeta_to_abc_total ro Hro) as (def & -> & Hdef). cbn [bind]. eexists. split; [reflexivity|]. cbn [dfim_cur]. rewrite app_length. lia.
  - intros y [[[ef el] is] ir] u _ _ Hu. destruct (Hsp3 u ltac:(lia)) as [L1 L2]. unfold dfim_volt.
    destruct (abc_to_dq_total (rotor_part 3 3 u) (ef - el) L2) as (udq & -> & Hudq). cbn [bind].
    destruct (abc_to_alphabeta_total (stator_part 3 u) L1) as (us & -> & Hus). cbn [bind].
    destruct (dq_to_alphabeta_total udq ef Hudq) as (ur & -> & Hur). cbn [bind]. eexists. split; [reflexivity|].
    destruct (len2 us Hus) as (a & b & ->). destruct (len2 ur Hur) as (c & d & ->). exists a, b, c, d. reflexivity.
  - intros y [[[ef el] is] ir] u _ _ Hu. destruct (Hsp3 u ltac:(lia)) as [L1 L2]. unfold dfim_volt.
    destruct (abc_to_dq_total (rotor_part 3 3 u) (ef - el) L2) as (udq & -> & Hudq). cbn [bind].
    destruct (abc_to_alphabeta_total (stator_part 3 u) L1) as (us & -> & Hus). cbn [bind].
    destruct (dq_to_alphabeta_total udq ef Hudq) as (ur & -> & Hur). cbn [bind]. eexists. split; [reflexivity|].
    destruct (len2 us Hus) as (a & b & ->). destruct (len2 ur Hur) as (c & d & ->). exists a, b, c, d. reflexivity.
  - intros y v a c t _ _ Ha Hc. destruct (C4 c a t Hc Ha) as (c' & ts & Et & H). exists a, c', ts. auto.
  - intros y [[[ef el] is] ir] iv st _ _ Hy Hu Hsup Hp Hst. destruct (Hsp3 (iv_u iv) ltac:(lia)) as [L1 L2]. unfold dfim_out, motor_idx, load_idx, eps_idx.
    destruct (abc_to_dq_total (stator_part 3 (iv_u iv)) ef L1) as (udq & -> & Hudq). cbn [bind].
    destruct (abc_to_dq_total (rotor_part 3 3 (iv_u iv)) (ef - el) L2) as (urdq & -> & Hurdq). cbn [bind].
    seqt (iv_y iv). destruct (M2 l Hl) as (tq & ->). cbn [bind]. seqt (iv_y iv). destruct (Hst2 (iv_y iv) Hy) as (i & -> & Hi). cbn [bind].
    destruct (alphabeta_to_dq_total i ef Hi) as (idq & -> & Hidq). cbn [bind].
    destruct (dq_to_abc_total idq ef Hidq) as (abc & -> & Habc). cbn [bind]. destruct (Hrot (iv_y iv) Hy) as (ro & -> & Hro). cbn [bind].
    destruct (alphabeta_to_dq_total ro ef Hro) as (rdq & -> & Hrdq). cbn [bind].
    destruct (dq_to_abc_total rdq (ef - el) Hrdq) as (def & -> & Hdef). cbn [bind].
    destruct (item_total (iv_y iv) (ml_n ml + mo_n mo - 1)) as (e & ->); [lia|]. cbn [bind]. eexists. split; [reflexivity|].
    rewrite !app_length. cbn [length]. lia.
  - intros mech ms u us H1 H2 Hu Hus. destruct (Hsp3 u ltac:(lia)) as [L1 L2]. unfold dfim_obs, eps_idx.
    assert (Hy : length (mech ++ ms) = (ml_n ml + mo_n mo)%nat) by (rewrite app_length; lia).
    destruct (item_total (mech ++ ms) (ml_n ml + mo_n mo - 1)) as (e & ->); [lia|]. cbn [bind].
    destruct (Hfa _ Hy) as (ef & ->). cbn [bind].
    destruct (abc_to_dq_total (stator_part 3 u) (wrap ef) L1) as (udq & -> & Hudq). cbn [bind].
    destruct (abc_to_dq_total (rotor_part 3 3 u) (wrap ef - wrap e) L2) as (urdq & -> & Hurdq). cbn [bind].
    destruct (Hst2 _ Hy) as (i & -> & Hi). cbn [bind]. destruct (alphabeta_to_dq_total i (wrap ef) Hi) as (idq & -> & Hidq). cbn [bind].
    destruct (dq_to_abc_total idq (wrap ef) Hidq) as (abc & -> & Habc). cbn [bind]. destruct (Hrot _ Hy) as (ro & -> & Hro). cbn [bind].
    destruct (alphabeta_to_dq_total ro (wrap ef - wrap e) Hro) as (rdq & -> & Hrdq). cbn [bind].
    destruct (dq_to_abc_total rdq (wrap ef - wrap e) Hrdq) as (def & -> & Hdef). cbn [bind]. destruct (M2 ms H2) as (tq & ->). cbn [bind]. eexists. split; [reflexivity|].
    rewrite !app_length. cbn [length]. lia.
Qed.
End Drives.
