(** The cascaded controller of synchronous motors in torque mode, over whole histories.
    Property C190.  Source: examples/classic_controllers/controllers/cascaded_foc_controller.py
    166-271 and torque_to_current_conversion.py. *)
From Coq Require Import ZArith Lra Lia.
From Verif Require Import PyBaseFacts PyDictFacts Transform_Model Transform_Proofs Motor_Model Conv_Model Wrap_Model Ctl_Model Ctl_Model2 Ctl_Spec Ctl_Proofs Ctl_Proofs2 Ctl_Props Emf_Props Ops_Model Ops_Proofs Ops_Props Ops_Props2 Ops_Props3 Ops_Props4 Ops_Model2 Ops_Proofs2 Ops_Props6 Ops_Props7 Ops_Props8 Ex_Model4 Ex_Props4 Ex_Props5.
From Verif Require Import PyBase PyDict PhysSys_Model Ex_Model Ex_Model2 Ex_Spec Ex_Proofs Ex_Proofs2 Ex_Proofs3 Ex_Proofs5 Ex_Props2 Ex_Model3 Ex_Spec2 Ex_Proofs6 Ex_Proofs7 Ex_Props3 Ex_Props6.
Local Open Scope string_scope.
Local Open Scope list_scope.
Local Open Scope R_scope.

(** The answers of a history of calls, each with the references the controller holds afterwards;
    an exception ends the history. *)
Fixpoint cas_runs {T} (conv : T -> list R -> R -> res (T * (R * R))) (l : slp) (tq rd_idx : nat) (f : foc_par) (ts : T) (cs : base * base) (x : list base * list R) (h : list (list R * list R)) : list (res (list R * list R)) :=
  match h with
  | [] => []
  | (s, r) :: rest =>
      match cfoc_control conv l true false tq rd_idx f ts cs x s r with
      | Ok (ts', cs', x', act) => Ok (act, snd x') :: cas_runs conv l tq rd_idx f ts' cs' x' rest
      | Err e => [Err e]
      end
  end.
(** the indices of the current control lie in states of [n] entries *)
Definition foc_fits (n : nat) (f : foc_par) : Prop :=
  length (fo_limit f) = n /\ (fo_isd f < n)%nat /\ (fo_isq f < n)%nat /\ (fo_usd f < n)%nat /\ (fo_usq f < n)%nat /\ (fo_omega f < n)%nat /\ (fo_eps f < n)%nat /\ fo_lo f <= fo_hi f.
Lemma foc_action_ok f a b e : fo_lo f <= fo_hi f -> exists act ok, foc_action f a b e = Ok (act, ok) /\ length act = 3%nat /\ forall y, In y act -> fo_lo f <= y <= fo_hi f.
Proof.
  intros B. unfold foc_action. destruct (backward_ok a b e) as (raw & E). rewrite E. pose proof (backward_length _ _ _ _ E) as L. destruct raw as [|y0 [|y1 [|y2 [|]]]]; try discriminate L. cbn [bind shifted list_max list_min map]. do 2 eexists. split; [reflexivity|]. split; [reflexivity|]. intros y [<-|[<-|[<-|[]]]]; apply np_clip_both; exact B.
Qed.
Lemma cfoc_cont_ok n f pd pq s rd rq : foc_fits n f -> length s = n -> exists pd' pq' act, cfoc_cont f (BPi pd, BPi pq) s rd rq = Ok (BPi pd', BPi pq', act) /\ length act = 3%nat /\ forall y, In y act -> fo_lo f <= y <= fo_hi f.
Proof.
  intros (L & I1 & I2 & I3 & I4 & I5 & I6 & B) LS. destruct (Ex_Props5.item_lt s (fo_isd f) ltac:(lia)) as (id & A1). destruct (Ex_Props5.item_lt s (fo_isq f) ltac:(lia)) as (iq & A2). destruct (Ex_Props5.item_lt s (fo_omega f) ltac:(lia)) as (w & A3). destruct (Ex_Props5.item_lt s (fo_eps f) ltac:(lia)) as (ep & A4).
  destruct (Ex_Props5.item_lt (fo_limit f) (fo_isq f) ltac:(lia)) as (l2 & B2). destruct (Ex_Props5.item_lt (fo_limit f) (fo_omega f) ltac:(lia)) as (l3 & B3). destruct (Ex_Props5.item_lt (fo_limit f) (fo_eps f) ltac:(lia)) as (l4 & B4). destruct (Ex_Props5.item_lt (fo_limit f) (fo_usd f) ltac:(lia)) as (l5 & B5). destruct (Ex_Props5.item_lt (fo_limit f) (fo_usq f) ltac:(lia)) as (l6 & B6).
  unfold cfoc_cont, foc_cont, foc_angle. rewrite A4, B4, A3, B3. cbn [bind]. assert (D : exists u0, foc_decouple (fo_usd f) f s = Ok u0). { unfold foc_decouple, foc_usd0, foc_usq0. rewrite A1, A2, A3, B2, B3, B5, B6. cbn [bind]. destruct (fo_dec f); eexists; reflexivity. }
  destruct D as (u0 & ->). cbn [bind]. rewrite A1, A2. cbn [bind fst snd b_control]. match goal with |- context [foc_action f ?a ?b ?e] => destruct (foc_action_ok f a b e B) as (act & ok & -> & LA & BA) end. cbn [bind fst snd]. destruct ok; cbn [b_integrate bind]; do 3 eexists; (split; [reflexivity|]); (split; [exact LA|exact BA]).
Qed.
(** Torque references of the unit interval, states of the right width, PI current controllers: the
    cascade answers every call of every history.  Each answer is three phase voltages within the
    action space, and the references it holds are within the nominal currents and end with the
    reference that was given. *)
Theorem cascade_torque_history :
  forall e nom roots o nd nq ld lq lim l tq rd_idx f ts i pd pq over a b c h,
  length (ce_names e) = length (ce_limits e) -> ttc_par e nom = Ok (q_f o) -> ttc_tables None o -> (forall p, roots p <> []) ->
  item (fp_nom (q_f o)) (fp_isd (q_f o)) = Ok nd -> item (fp_nom (q_f o)) (fp_isq (q_f o)) = Ok nq -> item (fp_lim (q_f o)) (fp_isd (q_f o)) = Ok ld -> item (fp_lim (q_f o)) (fp_isq (q_f o)) = Ok lq ->
  0 <= nd <= ld -> 0 <= nq <= lq -> 0 < ld -> 0 < lq -> item (fo_limit f) tq = Ok lim -> 0 <= lim <= q_maxt o -> fm_int ts = Some i -> foc_fits (length (ce_limits e)) f ->
  (forall s r, In (s, r) h -> length s = length (ce_limits e) /\ exists r0 rest, r = r0 :: rest /\ Rabs r0 <= 1) ->
  Forall2 (fun x out => exists act iq id r0, out = Ok (act, [iq; id; r0]) /\ length act = 3%nat /\ (forall y, In y act -> fo_lo f <= y <= fo_hi f) /\ Rabs iq <= nq / lq /\ Rabs id <= nd / ld /\ nth_error (snd x) 0 = Some r0)
    h (cas_runs (ttc_conv roots o) l tq rd_idx f ts (BPi pd, BPi pq) (over, [a; b; c]) h).
Proof.
  intros e nom roots o nd nq ld lq lim l tq rd_idx f ts i pd pq over a b c h LE HF HT HR E1 E2 E3 E4 Hd Hq Pd Pq EL HL HI FF. revert ts i pd pq a b c HI. induction h as [|[s r] h IH]; intros ts i pd pq a b c HI Hh; [constructor|].
  destruct (Hh s r (or_introl eq_refl)) as (HS & r0 & rest & -> & H0). destruct (cascade_torque_references e nom roots o nd nq ld lq lim l tq rd_idx f ts i (BPi pd, BPi pq) over a b c s r0 rest LE HF HT HR E1 E2 E3 E4 Hd Hq Pd Pq EL HL HS HI H0) as (ts' & i' & iq & id & HI' & B1 & B2 & E).
  destruct (cfoc_cont_ok _ f pd pq s id iq FF HS) as (pd' & pq' & act & EC & LA & BA). rewrite EC in E. cbn [bind fst snd] in E. cbn [cas_runs]. rewrite E. constructor.
  - exists act, iq, id, r0. repeat (split; [first [reflexivity|assumption]|]). reflexivity.
  - apply (IH ts' i' pd' pq' iq id r0 HI'). intros y z Hy. apply Hh. right. exact Hy.
Qed.
Print Assumptions cascade_torque_history.
(** The hypotheses are met. *)
Example cascade_history_example : forall f l, ttc_par pmsm_env ttc_nom = Ok f -> foc_fits (length (ce_limits pmsm_env)) pm_foc /\ exists o, q_f o = f /\ ttc_tables None o /\ item (fo_limit pm_foc) 1 = Ok 40 /\ q_maxt o = 40 /\
  exists act1 act2 x1 x2, cas_runs (ttc_conv (fun _ => [0]) o) l 1 0 pm_foc ttc_new (BPi im_pi, BPi im_pi) ([], [0; 0; 0]) [(ttc_state, [1 / 2]); (ttc_state, [-1])] = [Ok (act1, x1); Ok (act2, x2)].
Proof.
  intros f l HF. assert (FI : foc_fits (length (ce_limits pmsm_env)) pm_foc) by (unfold foc_fits; cbn [pm_foc fo_limit fo_isd fo_isq fo_usd fo_usq fo_omega fo_eps fo_lo fo_hi pmsm_env ce_limits length]; repeat split; try lia; lra). split; [exact FI|].
  set (o := {| q_f := f; q_c := {| pc_ld := 3 / 10000; pc_lq := 1 / 1000; pc_psi := 1 / 15; pc_p := 3 |}; q_inv := 1; q_maxt := 40; q_mtpc := repeat flat_row 250; q_mtpf := repeat flat_row 499; q_psimax := 1 |}).
  assert (FF := HF). unfold ttc_par in FF. cbn [pmsm_env ce_par ce_names ce_limits ce_tau] in FF. apply ok_inj in FF. assert (L : item (fp_nom f) (fp_isd f) = Ok 80 /\ item (fp_nom f) (fp_isq f) = Ok 80 /\ item (fp_lim f) (fp_isd f) = Ok 100 /\ item (fp_lim f) (fp_isq f) = Ok 100) by (rewrite <- FF; repeat split). clear FF. destruct L as (L1 & L2 & L3 & L4).
  assert (T : ttc_tables None o) by (repeat split; cbn [o q_mtpc q_mtpf q_maxt]; rewrite ?repeat_length; try lia; lra). exists o. split; [reflexivity|]. split; [exact T|]. split; [reflexivity|]. split; [reflexivity|].
  assert (H := cascade_torque_history pmsm_env ttc_nom (fun _ => [0]) o 80 80 100 100 40 l 1 0 pm_foc ttc_new 0 im_pi im_pi [] 0 0 0 [(ttc_state, [1 / 2]); (ttc_state, [-1])] eq_refl HF T ltac:(discriminate) L1 L2 L3 L4 ltac:(lra) ltac:(lra) ltac:(lra) ltac:(lra) eq_refl ltac:(cbn [o q_maxt]; lra) eq_refl FI).
  specialize (H ltac:(intros s r [X|[X|[]]]; apply pair_equal_spec in X; destruct X as [<- <-]; (split; [reflexivity|]); do 2 eexists; (split; [reflexivity|]); unfold Rabs; destruct (Rcase_abs _); lra)).
  revert H. match goal with |- Forall2 _ _ ?c -> _ => generalize c end. intros runs H. inversion H as [|x y h h' P1 H2 Q1 Q2]. subst. inversion H2 as [|x' y' k k' P2 H3 Q3 Q4]. subst. inversion H3. subst. destruct P1 as (a1 & q1 & d1 & r1 & -> & _). destruct P2 as (a2 & q2 & d2 & r2 & -> & _). do 4 eexists. reflexivity.
Qed.
