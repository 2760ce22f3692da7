(** The tuned DC current controllers as scalar PI controllers. *)
From Verif Require Import PyBaseFacts PyDictFacts Transform_Model Transform_Proofs Motor_Model Conv_Model Wrap_Model Ctl_Model Ctl_Model2 Ctl_Spec Ctl_Proofs Ctl_Proofs2 Ctl_Props Emf_Props Loop_Spec Loop_Proofs.
Local Open Scope string_scope. Local Open Scope list_scope. Local Open Scope R_scope.

(** A controller that differs from [c] in its integrator only. *)
Definition like (c : cctl) (z : R) (c' : cctl) : Prop :=
  b_kind (cc_base c') = KPI /\ b_p (cc_base c') = b_p (cc_base c) /\ b_i (cc_base c') = b_i (cc_base c) /\ b_idx (cc_base c') = b_idx (cc_base c) /\ b_int (cc_base c') = [z] /\
  cc_aw c' = cc_aw c /\ cs_clip (cc_clip c') = cs_clip (cc_clip c) /\ cc_dec c' = cc_dec c /\ cc_emf c' = cc_emf c /\ cc_req c' = cc_req c.
(** A controller for one current. *)
Record single (c : cctl) (kp ki : R) (ji : nat) (tau lo hi : R) : Prop := {
  sg_p : b_p (cc_base c) = [kp]; sg_i : b_i (cc_base c) = [ki]; sg_idx : b_idx (cc_base c) = Some [ji]; sg_aw : aw_idx (cc_aw c) = [ji]; sg_tau : aw_tau (cc_aw c) = tau;
  sg_clip : cs_clip (cc_clip c) = CAbs [lo] [hi]; sg_req : cc_req c = false }.
Lemma single_step c kp ki ji tau lo hi c' z s r i y : single c kp ki ji tau lo hi -> like c z c' -> item s ji = Ok i ->
  (if cc_dec c then emf_call (cc_emf c) s [kp * (r - i) + ki * z] else Ok [kp * (r - i) + ki * z]) = Ok [y] -> lo <= y <= hi ->
  exists c2, current_control c' s [r] = (c2, Ok [y]) /\ like c (z + tau * (r - i)) c2.
Proof.
  intros [S1 S2 S3 S4 S5 S6 S7] (L1 & L2 & L3 & L4 & L5 & L6 & L7 & L8 & L9 & L10) Hi Hy Hr.
  assert (EB : base_call (cc_base c') s [r] = (cc_base c', Ok [kp * (r - i) + ki * z])).
  { unfold base_call. rewrite L1. f_equal. unfold pi_control, base_states, p_part, i_part. rewrite L4, S3, (select1 _ _ _ Hi). cbn [bind]. rewrite L2, L3, L5, S1, S2. reflexivity. }
  assert (EC : clip_call (cc_clip c') [y] = ({| cs_task := cs_task (cc_clip c'); cs_clip := cs_clip (cc_clip c'); cs_diff := [y - y] |}, Ok [y])).
  { unfold clip_call. rewrite L7, S6. cbn [clipped]. unfold np_clips, np_bin. cbn [length Nat.eqb map2 bind]. rewrite (Rmax_left y lo), (Rmin_left y hi) by lra. reflexivity. }
  eexists. split.
  - unfold current_control. rewrite EB. cbn [bind]. rewrite L8, L9, Hy. rewrite EC. rewrite L10, S7. unfold has_integrator. rewrite L1. unfold windup_call. rewrite L6, S4, (select1 _ _ _ Hi). cbn [bind cs_diff]. unfold np_bin. cbn [length Nat.eqb map2 bind map]. rewrite L5. unfold np_iadd. cbn [length Nat.eqb map2]. reflexivity.
  - repeat split; cbn [cc_upd cc_base base_set_int b_kind b_p b_i b_idx b_int cc_aw cc_clip cs_clip cc_dec cc_emf cc_req]; try assumption. destruct (reqP (y - y) 0) as [_|N]; [|exfalso; apply N; ring]. rewrite S5. f_equal. ring.
Qed.

Definition dc_single (m : string) : Prop := m = "SeriesDc" \/ m = "ShuntDc" \/ m = "PermExDc".
Definition cur_name (m : string) : string := if String.eqb m "ShuntDc" then "i_a" else "i".
Lemma tuned_single e id a c m L : tuned_pi e id a c -> motor_type id = Ok m -> dc_single m -> read l_reader m e = Ok [L] -> 0 < L -> 0 < ce_tau e -> 0 < a ->
  exists ji lo hi, single c (L / (ce_tau e * a)) (L / (ce_tau e * a) / (ce_tau e * (a * a))) ji (ce_tau e) lo hi /\ like c 0 c /\ str_index (cur_name m) (ce_names e) = Ok ji /\ cc_dec c = true /\
    emf_tune (emf_new EPlain) e id = Ok (cc_emf c) /\ (forall y, in_voltage_range e y <-> lo <= y <= hi).
Proof.
  intros (c0 & c1 & H0 & H & ->) Hm Hd HL L0 Ht Ha.
  assert (EA : str_in m ac_motors = false) by (destruct Hd as [-> | [-> | ->]]; reflexivity). assert (EI : str_in m induction_motors = false) by (destruct Hd as [-> | [-> | ->]]; reflexivity). assert (EE : String.eqb m "EESM" = false) by (destruct Hd as [-> | [-> | ->]]; reflexivity).
  unfold cc_new in H0. rewrite Hm in H0. cbn [bind] in H0. rewrite EA, EI, EE in H0. apply bind_ok in H0. destruct H0 as (kd & Ek & H0). injection Ek as <-. injection H0 as <-.
  unfold cc_tune in H. apply bind_ok in H. destruct H as (at_ & _ & H). rewrite Hm in H. cbn [bind cc_req cc_abc cc_emf cc_base cc_aw cc_clip cc_dec] in H.
  rewrite EA in H. rewrite andb_false_r in H. cbn [orb bind] in H.
  apply bind_ok in H. destruct H as (ef & Eef & H). apply bind_ok in H. destruct H as (b & Eb & H). apply bind_ok in H. destruct H as (w & Ew & H). apply bind_ok in H. destruct H as (cl & Ecl & H). apply bind_ok in H. destruct H as (us' & Eus & H). apply bind_ok in H. destruct H as (loop & _ & H). injection H as <-.
  destruct (base_tuned _ _ _ _ _ _ _ (or_introl eq_refl) eq_refl Eb Hm) as (l & cs & idx & El & Ecs & Eidx & B1 & B2 & B3 & B4 & B5 & B6). rewrite HL in El. injection El as <-.
  assert (Ecs' : cs = [cur_name m]) by (destruct Hd as [-> | [-> | ->]]; injection Ecs as <-; reflexivity). rewrite Ecs' in *.
  cbn [indices] in Eidx. apply bind_ok in Eidx. destruct Eidx as (ji & Eji & Eidx). injection Eidx as <-.
  unfold windup_tune in Ew. rewrite Hm in Ew. cbn [bind windup_new aw_task] in Ew. rewrite Ecs in Ew. cbn [bind indices] in Ew. rewrite Eji in Ew. cbn [bind] in Ew. injection Ew as <-.
  assert (Eus' : us' = ["u"]) by (destruct Hd as [-> | [-> | ->]]; injection Eus as <-; reflexivity). rewrite Eus' in *.
  unfold clip_tune in Ecl. rewrite Hm in Ecl. cbn [bind clip_names abs_new cs_task] in Ecl. unfold clip_names in Ecl. cbn [abs_new cs_task] in Ecl. rewrite Eus in Ecl. cbn [bind abs_new cs_clip] in Ecl.
  apply bind_ok in Ecl. destruct Ecl as (ui & Eui & Ecl). apply bind_ok in Ecl. destruct Ecl as (rg & Erg & Ecl). injection Ecl as <-. cbn [indices] in Eui. apply bind_ok in Eui. destruct Eui as (ju & Eju & Eui). injection Eui as <-.
  destruct (ranges_inv _ [ju] _ _ 1%nat eq_refl Erg) as (li & lo & hi & E1 & E2 & E3 & L1 & L2 & C). destruct (C O (Nat.lt_0_succ _)) as [C1 C2].
  rewrite (select_comp _ _ _ O E1), (select_comp _ _ _ O E2) in C1 by (cbn; lia). rewrite (select_comp _ _ _ O E1), (select_comp _ _ _ O E3) in C2 by (cbn; lia). cbn [nth] in C1, C2.
  destruct rg as [glo ghi]. cbn [fst snd] in *. destruct glo as [|xlo [|? ?]]; [discriminate L1| |discriminate L1]. destruct ghi as [|xhi [|? ?]]; [discriminate L2| |discriminate L2]. change (comp 0 [xlo]) with xlo in C1. change (comp 0 [xhi]) with xhi in C2.
  assert (HI : has_integrator b = true) by (unfold has_integrator; rewrite B2; reflexivity).
  assert (Kpos : 0 < L / (ce_tau e * a)) by (apply Rdiv_lt_0_compat; [lra|apply Rmult_lt_0_compat; lra]).
  assert (P1 : b_p b = [L / (ce_tau e * a)]) by (rewrite B4; reflexivity).
  assert (P2 : b_i b = [L / (ce_tau e * a) / (ce_tau e * (a * a))]). { rewrite B5, P1. unfold i_gain_set. cbn [map]. rewrite Rmax_left; [reflexivity|]. apply Rlt_le, Rdiv_lt_0_compat; [exact Kpos|]. repeat apply Rmult_lt_0_compat; lra. }
  exists ji, xlo, xhi. unfold cc_reset, base_reset. cbn [cc_base cc_upd]. rewrite HI. split; [|split; [|split; [exact Eji|split; [reflexivity|split; [exact Eef|]]]]].
  - split; cbn [cc_upd cc_base base_set_int b_p b_i b_idx cc_aw aw_idx aw_tau cc_clip clip_reset cs_clip cc_req]; try assumption; reflexivity.
  - repeat split; cbn [cc_upd cc_base base_set_int b_kind b_int]; [exact B2|]. rewrite P2. reflexivity.
  - intros y. unfold in_voltage_range. split.
    + intros H. specialize (H ju Eju). lra.
    + intros H j Ej. rewrite Eju in Ej. injection Ej as <-. lra.
Qed.
