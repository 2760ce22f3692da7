(** C119: the derivative action of the PID current controller. *)
From Verif Require Import PyBaseFacts PyDictFacts Transform_Model Transform_Proofs Conv_Model Wrap_Model Ctl_Model Ctl_Model2 Ctl_Spec Ctl_Proofs Ctl_Proofs2 Ctl_Props Total_Props.
Local Open Scope string_scope. Local Open Scope list_scope. Local Open Scope R_scope.

(** The k-th control error, given the positions of the controlled currents. *)
Definition err (ci : list nat) (k : nat) (i : list R * list R) : R := comp k (snd i) - comp (nth k ci 0%nat) (fst i).
(** The error of the last step of a history, 0 for the empty one. *)
Fixpoint last_err (ci : list nat) (k : nat) (z : R) (ins : list (list R * list R)) : R := match ins with [] => z | i :: l => last_err ci k (err ci k i) l end.

Lemma base_call_pid n b s r b' u t : base_shape n b -> b_kind b = KPID -> b_tau b = Some t -> length r = n -> base_call b s r = (b', Ok u) ->
  exists x, base_states b s = Ok x /\ length x = n /\ forall k, (k < n)%nat -> comp k (b_last b') = comp k r - comp k x /\
  comp k u = comp k (b_p b) * (comp k r - comp k x) + comp k (b_i b) * comp k (b_int b) + comp k (b_d b) * (comp k r - comp k x - comp k (b_last b)) / t.
Proof.
  intros Hs K T Hr H. pose proof Hs as (Hp & Hi & Hint & (idx & Eidx & Hidx) & Hk). unfold base_call in H. rewrite K in H, Hk. destruct Hk as [Hd Hl].
  destruct (bind _ _) as [x|] eqn:E in H; [|discriminate]. injection H as <- H. apply bind_ok in E. destruct E as (u1 & E1 & E). apply bind_ok in E. destruct E as (st & E2 & E). apply bind_ok in E. destruct E as (er & E3 & E). apply bind_ok in E. destruct E as (dd & E4 & E).
  injection E as <-. cbn [fst snd base_set_last b_last] in *. destruct (pi_control_inv _ _ _ _ n Hs Hr E1) as (x & Ex & Lx & L & C). rewrite E2 in Ex. injection Ex as <-. destruct (np_bin_inv _ _ _ _ n E3 Hr Lx) as [L3 C3].
  unfold d_part in E4. apply bind_ok in E4. destruct E4 as (de & E4 & E5). apply bind_ok in E5. destruct E5 as (xx & E5 & E6). rewrite T in E6. injection E6 as <-.
  destruct (np_bin_inv _ _ _ _ n E4 L3 Hl) as [L4 C4]. destruct (np_bin_inv _ _ _ _ n E5 Hd L4) as [L5 C5]. assert (L6 : length (map (fun v => v / t) xx) = n) by (rewrite map_length; exact L5).
  destruct (np_bin_inv _ _ _ _ n H L L6) as [L7 C7]. exists st. split; [exact E2|]. split; [exact Lx|]. intros k Hk. split; [apply C3, Hk|]. rewrite C7, C, (comp_map (fun v => v / t)), C5, C4, C3 by lia. reflexivity.
Qed.
(** What the steps of a PID controller keep. *)
Definition pid_like (n : nat) (t : R) (p i d : list R) (ci : list nat) (c : cctl) : Prop :=
  shaped n c /\ b_kind (cc_base c) = KPID /\ b_tau (cc_base c) = Some t /\ b_p (cc_base c) = p /\ b_i (cc_base c) = i /\ b_d (cc_base c) = d /\ b_idx (cc_base c) = Some ci /\ aw_idx (cc_aw c) = ci.
Lemma pid_step n t p i d ci c s r c' out : pid_like n t p i d ci c -> length r = n -> current_control c s r = (c', Ok out) ->
  pid_like n t p i d ci c' /\ forall k, (k < n)%nat -> comp k (b_last (cc_base c')) = err ci k (s, r).
Proof.
  intros (Sh & K & T & P & I & D & X & A) Hr H. pose proof (current_step n c s r c' out Sh Hr H) as (Sh1 & y & v & x & S1 & S2 & S3 & S4 & S5 & S6 & _ & S7 & S8 & S9 & S10 & S11 & S12 & _).
  apply current_control_inv in H. destruct H as (b & u & y' & cl & v' & E1 & _ & _ & _ & E5). pose proof (base_call_static _ _ _ _ _ E1) as (K' & _ & _ & _ & Z' & T' & X' & D').
  assert (HI : has_integrator b = true) by (unfold has_integrator; rewrite K', K; reflexivity). rewrite HI in E5. destruct E5 as (dl & z & _ & _ & ->).
  destruct (base_call_pid n _ _ _ _ _ t (proj1 Sh) K T Hr E1) as (x' & Ex & Lx & C). split.
  - split; [exact Sh1|]. cbn [cc_upd cc_base base_set_int b_kind b_tau b_p b_i b_d b_idx cc_aw] in *. repeat split; congruence.
  - intros k Hk. cbn [cc_upd cc_base base_set_int b_last]. rewrite (proj1 (C k Hk)). unfold err. cbn [fst snd]. unfold base_states in Ex. rewrite X in Ex. rewrite (select_comp _ _ _ k Ex); [reflexivity|]. pose proof (proj2 (proj2 (proj2 Sh))) as W. rewrite A in W. rewrite W. exact Hk.
Qed.
Lemma pid_run n t p i d ci k : (k < n)%nat -> forall ins c c', pid_like n t p i d ci c -> Forall (fun j => length (snd j) = n) ins -> cc_run c ins = Ok c' ->
  pid_like n t p i d ci c' /\ comp k (b_last (cc_base c')) = last_err ci k (comp k (b_last (cc_base c))) ins.
Proof.
  intros Hk. induction ins as [|[s r] ins IH]; intros c c' Hc Hl H; cbn [cc_run last_err] in *; [injection H as <-; auto|].
  destruct (current_control c s r) as [c1 o] eqn:E. apply bind_ok in H. destruct H as (u & -> & H). apply Forall_cons_iff in Hl. destruct Hl as [Hr Hl]. destruct (pid_step n t p i d ci c s r c1 u Hc Hr E) as [H1 H2]. rewrite <- (H2 k Hk). apply IH; assumption.
Qed.
Lemma pid_tuned id dec e a c0 c m : cc_new id "PID" dec = Ok c0 -> cc_tune c0 e id a = Ok c -> motor_type id = Ok m -> env_proper e ->
  exists l cs ci, read l_reader m e = Ok l /\ dict_item m currents = Ok cs /\ indices e cs = Ok ci /\ length l = axes m /\ length ci = axes m /\
  pid_like (axes m) (ce_tau e) (map (fun x => x / (ce_tau e * a)) l) (i_gain_set (map (fun x => x / (ce_tau e * (a * a))) (map (fun x => x / (ce_tau e * a)) l))) (map (fun x => x * ce_tau e) (map (fun x => x / (ce_tau e * a)) l)) ci (cc_reset c) /\
  b_last (cc_base (cc_reset c)) = repeat 0 (axes m) /\ b_int (cc_base (cc_reset c)) = repeat 0 (axes m).
Proof.
  intros H0 H Hm He. destruct (cc_tuned id "PID" dec e a c0 c m H0 (or_intror eq_refl) H Hm He) as (Sh & K & X & T & Pr & Z & Dc & _).
  unfold cc_new in H0. rewrite Hm in H0. cbn [bind] in H0. apply bind_ok in H0. destruct H0 as (kd & Ek & H0). injection Ek as <-. injection H0 as <-.
  unfold cc_tune in H. apply bind_ok in H. destruct H as (at_ & _ & H). rewrite Hm in H. cbn [bind] in H. apply bind_ok in H. destruct H as (ab & _ & H). apply bind_ok in H. destruct H as (ef & _ & H). apply bind_ok in H. destruct H as (b & Eb & H). apply bind_ok in H. destruct H as (w & _ & H). apply bind_ok in H. destruct H as (cl & _ & H). apply bind_ok in H. destruct H as (us' & _ & H). apply bind_ok in H. destruct H as (loop & _ & H). injection H as <-. cbn [cc_base] in *.
  destruct (base_tuned _ _ _ _ _ _ _ (or_intror eq_refl) eq_refl Eb Hm) as (l & cs & idx & El & Ecs & Eidx & B1 & B2 & B3 & B4 & B5 & B6). destruct (B6 eq_refl) as [B7 B8].
  pose proof (read_length _ _ _ _ (l_length m) El) as Ll. pose proof (indices_length _ _ _ Eidx) as Li. rewrite (currents_axes _ _ Ecs) in Li.
  exists l, cs, idx. repeat (split; [assumption|]). unfold cc_reset in *. cbn [cc_upd cc_base cc_aw] in *. unfold base_reset in *. assert (HI : has_integrator b = true) by (unfold has_integrator; rewrite B2; reflexivity). rewrite HI in *. cbn [base_set_int b_kind b_tau b_p b_i b_d b_idx b_last b_int] in *.
  split; [|split; [rewrite B8, B4, map_length, Ll; reflexivity|exact Z]]. split; [exact Sh|]. cbn [cc_upd cc_base cc_aw base_set_int b_kind b_tau b_p b_i b_d b_idx]. rewrite B5, B7, B4, B1, B2, B3. repeat split; auto. rewrite B1 in X. injection X as <-. reflexivity.
Qed.
(** The output of a tuned and reset PID controller after any history. *)
Theorem pid_action :
  forall id dec e a c0 c m, cc_new id "PID" dec = Ok c0 -> cc_tune c0 e id a = Ok c -> motor_type id = Ok m -> env_proper e -> 0 < ce_tau e ->
  exists l cs ci, read l_reader m e = Ok l /\ dict_item m currents = Ok cs /\ indices e cs = Ok ci /\
  forall ins c' s r u k, Forall (fun i => length (snd i) = axes m) ins -> length r = axes m -> (k < axes m)%nat -> 0 <= comp k l / (ce_tau e * a) / (ce_tau e * (a * a)) ->
  cc_run (cc_reset c) ins = Ok c' -> snd (base_call (cc_base c') s r) = Ok u ->
  comp k u = comp k l / (ce_tau e * a) * (err ci k (s, r) + gained k (cc_reset c) ins / (ce_tau e * (a * a)) + (err ci k (s, r) - last_err ci k 0 ins)).
Proof.
  intros id dec e a c0 c m H0 H Hm He Ht. destruct (pid_tuned id dec e a c0 c m H0 H Hm He) as (l & cs & ci & El & Ecs & Eci & Ll & Lc & Pl & La & Z). exists l, cs, ci. repeat (split; [assumption|]). intros ins c' s r u k Hl Hr Hk Hp Hrun Hu.
  destruct (pid_run _ _ _ _ _ _ k Hk ins _ _ Pl Hl Hrun) as [Pl' Hlast]. destruct (anti_windup_history (axes m) k ins _ _ Hk (proj1 Pl) Hl Hrun) as [_ Hint].
  destruct (base_call (cc_base c') s r) as [b' o] eqn:Eb. cbn [snd] in Hu. rewrite Hu in Eb. destruct Pl' as (Sh & K & T & P & I & D & X & A). destruct (base_call_pid _ _ _ _ _ _ _ (proj1 Sh) K T Hr Eb) as (x & Ex & Lx & C).
  rewrite (proj2 (C k Hk)), Hint, Hlast, La, Z, P, I, D. unfold base_states in Ex. rewrite X in Ex. rewrite (select_comp _ _ _ k Ex) by lia. fold (comp (nth k ci 0%nat) s). unfold i_gain_set.
  assert (Rz : comp k (repeat 0 (axes m)) = 0) by apply nth_repeat. rewrite Rz. rewrite !comp_map by (rewrite ?map_length; lia). rewrite Rmax_left by lra. unfold err at 1 2. cbn [fst snd].
  unfold Rdiv. rewrite Rplus_0_l. set (K0 := comp k l * / (ce_tau e * a)). set (J0 := / (ce_tau e * (a * a))). set (G0 := gained k (cc_reset c) ins). set (E0 := comp k r - comp (nth k ci 0%nat) s). set (L0 := last_err ci k 0 ins). field. lra.
Qed.
Print Assumptions pid_action.
(** [reset] clears the integrator but not the last error: after a reset the first output still contains the error of
    the last step before it. *)
Theorem pid_after_reset :
  forall id dec e a c0 c m, cc_new id "PID" dec = Ok c0 -> cc_tune c0 e id a = Ok c -> motor_type id = Ok m -> env_proper e -> 0 < ce_tau e ->
  exists l cs ci, read l_reader m e = Ok l /\ dict_item m currents = Ok cs /\ indices e cs = Ok ci /\
  forall ins c' s r u u' k, Forall (fun i => length (snd i) = axes m) ins -> length r = axes m -> (k < axes m)%nat ->
  cc_run (cc_reset c) ins = Ok c' -> snd (base_call (cc_base (cc_reset c)) s r) = Ok u -> snd (base_call (cc_base (cc_reset c')) s r) = Ok u' ->
  comp k u' = comp k u - comp k l / (ce_tau e * a) * last_err ci k 0 ins.
Proof.
  intros id dec e a c0 c m H0 H Hm He Ht. destruct (pid_tuned id dec e a c0 c m H0 H Hm He) as (l & cs & ci & El & Ecs & Eci & Ll & Lc & Pl & La & Z). exists l, cs, ci. repeat (split; [assumption|]). intros ins c' s r u u' k Hl Hr Hk Hrun Hu Hu'.
  destruct (pid_run _ _ _ _ _ _ k Hk ins _ _ Pl Hl Hrun) as [Pl' Hlast].
  assert (Z' : b_int (cc_base (cc_reset c')) = repeat 0 (axes m) /\ b_last (cc_base (cc_reset c')) = b_last (cc_base c')).
  { destruct Pl' as (Sh & K & _). unfold cc_reset. cbn [cc_upd cc_base]. unfold base_reset. assert (HI : has_integrator (cc_base c') = true) by (unfold has_integrator; rewrite K; reflexivity). rewrite HI. cbn [base_set_int b_int b_last]. destruct Sh as ((_ & Li & _) & _). rewrite Li. auto. }
  assert (Pr : pid_like (axes m) (ce_tau e) (map (fun x => x / (ce_tau e * a)) l) (i_gain_set (map (fun x => x / (ce_tau e * (a * a))) (map (fun x => x / (ce_tau e * a)) l))) (map (fun x => x * ce_tau e) (map (fun x => x / (ce_tau e * a)) l)) ci (cc_reset c')).
  { destruct Pl' as (Sh & K & T & P & I & D & X & A). unfold cc_reset. unfold base_reset. assert (HI : has_integrator (cc_base c') = true) by (unfold has_integrator; rewrite K; reflexivity). rewrite HI.
    split; [|cbn [cc_upd cc_base cc_aw base_set_int b_kind b_tau b_p b_i b_d b_idx]; repeat split; assumption]. destruct Sh as ((S1 & S2 & S3 & S4 & S5) & Sh2 & Sh3 & Sh4). split; [|split; [exact Sh2|split; [exact Sh3|exact Sh4]]]. split; [exact S1|split; [exact S2|split; [cbn [cc_upd cc_base base_set_int b_int]; rewrite repeat_length; exact S2|split; [exact S4|exact S5]]]]. }
  destruct (base_call (cc_base (cc_reset c)) s r) as [b1 o1] eqn:E1. cbn [snd] in Hu. rewrite Hu in E1. destruct (base_call (cc_base (cc_reset c')) s r) as [b2 o2] eqn:E2. cbn [snd] in Hu'. rewrite Hu' in E2.
  destruct Pl as (Sh & K & T & P & I & D & X & A). destruct Pr as (Sh2 & K2 & T2 & P2 & I2 & D2 & X2 & A2). destruct (base_call_pid _ _ _ _ _ _ _ (proj1 Sh) K T Hr E1) as (x & Ex & Lx & C). destruct (base_call_pid _ _ _ _ _ _ _ (proj1 Sh2) K2 T2 Hr E2) as (x2 & Ex2 & Lx2 & C2).
  assert (x2 = x). { unfold base_states in Ex, Ex2. rewrite X in Ex. rewrite X2 in Ex2. congruence. } subst x2.
  rewrite (proj2 (C k Hk)), (proj2 (C2 k Hk)), P, P2, I, I2, D, D2, Z, (proj1 Z'), (proj2 Z'), Hlast, La. assert (Rz : comp k (repeat 0 (axes m)) = 0) by apply nth_repeat. rewrite Rz. rewrite !(comp_map (fun x => x * ce_tau e)) by (rewrite ?map_length; lia). rewrite !(comp_map (fun x => x / (ce_tau e * a))) by lia.
  set (K0 := comp k l / (ce_tau e * a)). field. lra.
Qed.
Print Assumptions pid_after_reset.
Lemma pid_case : exists c0 c, cc_new "Cont-CC-PermExDc-v0" "PID" false = Ok c0 /\ cc_tune c0 dc_env "Cont-CC-PermExDc-v0" 4 = Ok c /\ cc_req c = false /\ cc_dec c = false.
Proof. do 2 eexists. split; [reflexivity|]. split; [reflexivity|]. split; reflexivity. Qed.
Example pid_example : exists c0 c c' u, cc_new "Cont-CC-PermExDc-v0" "PID" false = Ok c0 /\ cc_tune c0 dc_env "Cont-CC-PermExDc-v0" 4 = Ok c /\ motor_type "Cont-CC-PermExDc-v0" = Ok "PermExDc" /\
  cc_run (cc_reset c) [([0; 0; 0; 0; 60], [2]); ([0; 0; 1; 0; 60], [2])] = Ok c' /\ snd (base_call (cc_base c') [0; 0; 1; 0; 60] [4]) = Ok u /\ last_err [2%nat] 0 0 [([0; 0; 0; 0; 60], [2]); ([0; 0; 1; 0; 60], [2])] = 1.
Proof.
  destruct pid_case as (c0 & c & E1 & E2 & _). destruct (tuned_current_control_never_raises _ _ _ _ _ c0 c "PermExDc" [([0; 0; 0; 0; 60], [2]); ([0; 0; 1; 0; 60], [2])] [0; 0; 1; 0; 60] [4] E1 E2 eq_refl dc_env_proper ltac:(repeat constructor) eq_refl eq_refl) as (c' & c2 & out & R1 & R2 & _).
  apply current_control_inv in R2. destruct R2 as (b & u & y & cl & v & B1 & _). exists c0, c, c', u. rewrite B1. repeat (split; [assumption || reflexivity|]). cbn [last_err]. unfold err, comp. cbn [fst snd nth]. lra.
Qed.
(** So a reset PID controller does not behave like a new one. *)
Theorem pid_reset_forgets_history_refuted :
  ~ (forall id dec e a c0 c m ins c' s r, cc_new id "PID" dec = Ok c0 -> cc_tune c0 e id a = Ok c -> motor_type id = Ok m -> env_proper e ->
     Forall (fun i => length (snd i) = axes m) ins -> length r = axes m -> cc_run (cc_reset c) ins = Ok c' ->
     snd (current_control (cc_reset c') s r) = snd (current_control (cc_reset c) s r)).
Proof.
  intros H. destruct pid_case as (c0 & c & E1 & E2 & Rq & Dc). set (ins := [([0; 0; 0; 0; 60], [2])]). set (s := [0; 0; 0; 0; 60]).
  assert (Hl : Forall (fun i : list R * list R => length (fst i) = length (ce_names dc_env) /\ length (snd i) = axes "PermExDc") ins) by (repeat constructor). assert (Hl2 : Forall (fun i : list R * list R => length (snd i) = axes "PermExDc") ins) by (repeat constructor).
  destruct (tuned_live _ _ _ _ _ c0 c "PermExDc" E1 E2 eq_refl dc_env_proper) as [Lv _]. destruct (live_run _ _ ins _ Lv Hl) as (c' & R1 & L1 & Q1 & _).
  destruct (live_step _ _ (cc_reset c) s [0] Lv eq_refl eq_refl) as (c2 & out & R2 & _).
  specialize (H _ _ _ _ c0 c "PermExDc" ins c' s [0] E1 E2 eq_refl dc_env_proper Hl2 eq_refl R1). rewrite R2 in H. cbn [snd] in H. destruct (current_control (cc_reset c') s [0]) as [c3 o3] eqn:R3. cbn [snd] in H. rewrite H in R3.
  assert (Dc' : cc_dec c' = false). { destruct (current_control (cc_reset c) [0; 0; 0; 0; 60] [2]) as [c4 o4] eqn:R4. cbn [cc_run ins] in R1. unfold ins in R1. cbn [cc_run] in R1. rewrite R4 in R1. apply bind_ok in R1. destruct R1 as (u4 & Ou & R1). injection R1 as <-. rewrite Ou in R4. apply current_control_inv in R4. destruct R4 as (b & u & y & cl & v & _ & _ & _ & _ & B5). destruct (has_integrator b); [destruct B5 as (d & z & _ & _ & ->); exact Dc|rewrite B5; exact Dc]. }
  apply current_control_inv in R2. destruct R2 as (b & u & y & cl & v & B1 & B2 & _ & B4 & _). apply current_control_inv in R3. destruct R3 as (b' & u' & y' & cl' & v' & B1' & B2' & _ & B4' & _).
  change (cc_dec (cc_reset c)) with (cc_dec c) in B2. change (cc_req (cc_reset c)) with (cc_req c) in B4. change (cc_dec (cc_reset c')) with (cc_dec c') in B2'. change (cc_req (cc_reset c')) with (cc_req c') in B4'. change (cc_req (cc_reset c)) with (cc_req c) in Q1. rewrite Dc in B2. rewrite Rq in B4. rewrite Dc' in B2'. rewrite Q1, Rq in B4'. assert (Eu : u' = u) by congruence.
  destruct (pid_after_reset _ _ _ _ c0 c "PermExDc" E1 E2 eq_refl dc_env_proper ltac:(cbn; lra)) as (l & cs & ci & El & Ecs & Eci & P). injection El as <-. injection Ecs as <-. injection Eci as <-.
  specialize (P ins c' s [0] u u' 0%nat Hl2 eq_refl ltac:(cbn; lia) R1). rewrite B1, B1' in P. specialize (P eq_refl eq_refl). rewrite Eu in P. unfold ins in P. cbn [last_err] in P. unfold err, comp in P. cbn [fst snd nth] in P. cbn [dc_env ce_tau] in P. lra.
Qed.
Print Assumptions pid_reset_forgets_history_refuted.
