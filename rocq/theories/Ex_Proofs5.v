(** Proofs for the cascaded and the field oriented example controllers. *)
From Verif Require Import PyBase PyDict PyBaseFacts Transform_Model PhysSys_Model Motor_Model Ex_Model Ex_Model2 Ex_Spec Ex_Proofs Ex_Proofs2 Ex_Proofs3.
From Coq Require Import Lia Lra.
Local Open Scope string_scope.
Local Open Scope list_scope.
Local Open Scope R_scope.

(** ** Cascades *)
Lemma cc_control_refs c s r x : cc_exc c = None -> cc_control c s r = Ok x ->
  exists y, cc_refs c s r = Ok y /\ cc_ref (fst x) = snd y /\ skipn 1 (cc_stages (fst x)) = skipn 1 (fst y).
Proof.
  intros N. unfold cc_control. rewrite N. intros H. destruct (cc_refs c s r) as [y|] eqn:E; [|discriminate]. cbn [bind] in H. exists y. split; [reflexivity|].
  destruct (at_ (fst y) 0) as [b0|]; [|discriminate]. destruct (at_ (cc_rsi c) 0) as [i0|]; [|discriminate]. cbn [bind] in H. destruct (item s i0) as [s0|]; [|discriminate]. destruct (item (snd y) 0) as [r0|]; [|discriminate]. cbn [bind] in H.
  destruct (b_control b0 s0 r0) as [b u]. match type of H with bind ?m _ = _ => destruct m as [m1|]; [|discriminate] end. cbn [bind] in H.
  set (l := list_set 0 (fst m1) (fst y)) in H. assert (L : l = list_set 0 (fst m1) (fst y)) by reflexivity. clearbody l. injection H as <-. cbn. split; [reflexivity|]. subst l. destruct (fst y); reflexivity.
Qed.

(** The excitation limits and the kind of the innermost stage never change. *)
Definition exc_inv (lo hi : R) (c : cas) : Prop :=
  (exists e, cc_exc c = Some e /\ cx_low e = lo /\ cx_high e = hi) /\ exists b, at_ (cc_stages c) 0 = Ok b /\ is_cont b = true.
Lemma at_list_set_other {A} (l : list A) i v : (0 < i)%nat -> at_ (list_set i v l) 0 = at_ l 0.
Proof. intros H. destruct i as [|i]; [lia|]. destruct l; reflexivity. Qed.
Lemma cc_stage_first c s r i x y : (0 < i)%nat -> cc_stage c s r i x = Ok y -> at_ (fst y) 0 = at_ (fst x) 0.
Proof.
  intros I. unfold cc_stage. intros H. ub H. match type of H with (let (_, _) := ?t in _) = _ => destruct t as [b1 u] end. ub H.
  match type of H with (if ?t then _ else _) = _ => destruct t end.
  - ub H. injection H as H. apply (f_equal fst) in H. cbn [fst] in H. rewrite <- H. apply at_list_set_other, I.
  - injection H as H. apply (f_equal fst) in H. cbn [fst] in H. rewrite <- H. apply at_list_set_other, I.
Qed.
Lemma cc_loop_first c s r is : forall x y, Forall (fun i => (0 < i)%nat) is -> cc_loop c s r is x = Ok y -> at_ (fst y) 0 = at_ (fst x) 0.
Proof.
  induction is as [|i is IH]; intros x y F H; cbn in H; [injection H as <-; reflexivity|]. destruct (cc_stage c s r i x) as [x'|] eqn:E; [|discriminate]. cbn in H. inversion F; subst. rewrite (IH _ _ H3 H). eapply cc_stage_first; eauto.
Qed.
Lemma cc_range_pos n e om : Forall (fun i => (0 < i)%nat) (cc_range n e om).
Proof. unfold cc_range. apply Forall_rev. apply Forall_forall. intros x H. apply in_seq in H. lia. Qed.
Lemma cc_refs_first c s r y : cc_refs c s r = Ok y -> at_ (fst y) 0 = at_ (cc_stages c) 0.
Proof.
  unfold cc_refs. intros H. ub H. pose proof (cc_loop_first _ _ _ _ _ _ (cc_range_pos _ _ _) U1) as F. cbn [fst] in F. destruct (cc_exc c); [|injection H as <-; exact F]. ub H. injection H as <-. exact F.
Qed.
Lemma limited_cont b lo hi u s r m : limited b lo hi u s r = Ok m -> is_cont (fst m) = is_cont b.
Proof. unfold limited. destruct (rle lo u && rle u hi); [|intros H; injection H as <-; reflexivity]. destruct b; cbn; try discriminate; intros H; injection H as <-; reflexivity. Qed.
Lemma cc_control_exc lo hi c s r x : lo <= hi -> exc_inv lo hi c -> cc_control c s r = Ok x -> exc_inv lo hi (fst x) /\ exists a b, snd x = [a; b] /\ between lo hi a /\ between lo hi b.
Proof.
  intros LH ((e & X1 & X2 & X3) & b0 & B1 & B2) H. unfold cc_control in H. destruct (cc_refs c s r) as [y|] eqn:E; [|discriminate]. cbn [bind] in H. rewrite (cc_refs_first _ _ _ _ E), B1, X1 in H. cbn [bind] in H.
  destruct (at_ (cc_rsi c) 0) as [i0|]; [|discriminate]. cbn [bind] in H. destruct (item s i0) as [s0|]; [|discriminate]. destruct (item (snd y) 0) as [r0|]; [|discriminate]. cbn [bind] in H.
  pose proof (is_cont_control b0 s0 r0) as IC. destruct (b_control b0 s0 r0) as [b u]. cbn [fst] in IC. rewrite B2 in H, IC. destruct (cc_feedforward c s) as [ff|]; [|discriminate]. cbn [bind] in H. destruct (limited _ _ _ _ _ _) as [m|] eqn:M; [|discriminate]. apply limited_cont in M. rewrite IC in M. cbn [bind] in H.
  pose proof (cc_refs_first _ _ _ _ E) as F1. rewrite B1 in F1. set (l := list_set 0 (fst m) (fst y)) in H.
  assert (L : at_ l 0 = Ok (fst m)). { unfold l. destruct (fst y); [discriminate|reflexivity]. } clearbody l.
  match type of H with bind ?t _ = _ => destruct t as [ref|]; [|discriminate] end. cbn [bind] in H. ub H. match type of H with (let (_, _) := ?t in _) = _ => destruct t as [be ye] end. ub H. injection H as <-. cbn [fst snd cc_with cc_exc cc_stages]. split.
  - split; [eexists; split; [reflexivity|cbn; auto]|]. exists (fst m). split; [exact L|exact M].
  - do 2 eexists. split; [reflexivity|]. rewrite X2, X3. split; apply clip_between; exact LH.
Qed.
Lemma b_reset_cont b : is_cont (b_reset b) = is_cont b.
Proof. destruct b; reflexivity. Qed.
Lemma cc_run_exc lo hi h : lo <= hi -> forall c x, exc_inv lo hi c -> cc_run c h = Ok x -> Forall (fun a => exists u v, a = [u; v] /\ between lo hi u /\ between lo hi v) (snd x).
Proof.
  intros LH. induction h as [|[s r|] h IH]; intros c x V H; cbn [cc_run] in H.
  - injection H as <-. constructor.
  - destruct (cc_control c s r) as [y|] eqn:E; [|discriminate]. cbn [bind] in H. destruct (cc_run (fst y) h) as [z|] eqn:G; [|discriminate]. injection H as <-. destruct (cc_control_exc _ _ _ _ _ _ LH V E) as [V' B]. constructor; [exact B|]. apply (IH _ _ V' G).
  - apply (IH (cc_reset c) x); [|exact H]. destruct V as ((e & X1 & X2 & X3) & b0 & B1 & B2). split.
    + unfold cc_reset. rewrite X1. cbn. eexists. split; [reflexivity|cbn; auto].
    + exists (b_reset b0). split; [|rewrite b_reset_cont; exact B2]. unfold cc_reset. cbn. destruct (cc_stages c); [discriminate|]. cbn in *. congruence.
Qed.
Lemma cc_new_exc e sa sb refs c low high : en_extex e = true -> en_space e = SBox low high -> cc_new e (SPair sa sb) refs = Ok c ->
  exists l1 h1 j n l lo hi, item low 1 = Ok l1 /\ item high 1 = Ok h1 /\ str_index "u_e" (en_names e) = Ok j /\ item (en_nominal e) j = Ok n /\ item (en_limits e) j = Ok l /\
    lo = l1 * n / l /\ hi = h1 * n / l /\ exc_inv lo hi c.
Proof.
  intros X Sp. unfold cc_new. rewrite X, Sp. intros H. ub H. dsplit H. ub H. injection H as <-. rename U8 into K. ub K. injection K as <- <- <- <-. rename U14 into S1. ub S1. injection S1 as <-. unfold scaled in *. repeat match goal with [ K : bind _ _ = Ok ?v |- context [?v] ] => ub K; injection K as <- end.
  repeat match goal with [ K : Ok ?u = Ok ?v |- _ ] => assert (u = v) by congruence; subst; clear K end.
  do 7 eexists. split; [first [reflexivity|eassumption]|]. split; [first [reflexivity|eassumption]|]. split; [first [reflexivity|eassumption]|]. split; [eassumption|]. split; [eassumption|]. split; [reflexivity|]. split; [reflexivity|]. split.
  - eexists. split; [reflexivity|]. cbn. split; reflexivity.
  - cbn [cc_stages]. eexists. split; [eassumption|]. match goal with [ K : py_assert (Bool.eqb true ?x) = Ok _ |- _ ] => destruct x eqn:W; [|discriminate K] end. reflexivity.
Qed.

(** ** Phase voltages with given dq voltages differ by a common offset only. *)
Lemma same_dq_offset act x y eps raw : length act = 3%nat -> abc_to_dq act eps false = Ok [x; y] -> backward x y eps = Ok raw -> exists k, act = map (fun z => z - k) raw.
Proof.
  intros L. destruct act as [|a [|b [|c [|]]]]; try discriminate L. unfold backward, q. cbn. intros D H. injection H as <-. unfold abc_to_dq, q_inv, q, t_23, matvec, el_angle in D. cbn in D. rewrite cos_neg, sin_neg in D.
  assert (S3 : sqrt 3 * sqrt 3 = 3) by (apply sqrt_sqrt; lra). pose proof (sincos2 eps) as SC. set (s := sqrt 3) in *. set (co := cos eps) in *. set (z := sin eps) in *. clearbody s co z. injection D as D1 D2.
  exists (- ((a + b + c) / 3)).
  set (al := 2 / 3 * a - (b + c) / 3). set (be := s / 3 * (b - c)).
  assert (X1 : x = co * al + z * be) by (rewrite <- D1; unfold al, be; field). assert (X2 : y = - z * al + co * be) by (rewrite <- D2; unfold al, be; field).
  assert (A1 : co * x - z * y = al). { rewrite X1, X2. transitivity ((z * z + co * co) * al); [ring|rewrite SC; ring]. }
  assert (A2 : z * x + co * y = be). { rewrite X1, X2. transitivity ((z * z + co * co) * be); [ring|rewrite SC; ring]. }
  cbn [map]. f_equal; [|f_equal; [|f_equal]].
  - transitivity (al + (a + b + c) / 3); [unfold al; field|rewrite <- A1; field].
  - transitivity (- (1 / 2) * al + 1 / 2 * (s * be) + (a + b + c) / 3).
    + replace (s * be) with (s * s / 3 * (b - c)) by (unfold be; field). rewrite S3. unfold al. field.
    + rewrite <- A1, <- A2. field.
  - transitivity (- (1 / 2) * al - 1 / 2 * (s * be) + (a + b + c) / 3).
    + replace (s * be) with (s * s / 3 * (b - c)) by (unfold be; field). rewrite S3. unfold al. field.
    + rewrite <- A1, <- A2. field.
Qed.
Lemma backward_length x y eps raw : backward x y eps = Ok raw -> length raw = 3%nat.
Proof. unfold backward, q. cbn. intros H. injection H as <-. reflexivity. Qed.
Lemma backward_ok x y eps : exists raw, backward x y eps = Ok raw.
Proof. unfold backward, q. cbn. eexists. reflexivity. Qed.

Lemma foc_action_spec f m ud uq eps act ok : fo_lo f = - m -> fo_hi f = m -> 0 <= m -> foc_action f ud uq eps = Ok (act, ok) ->
  length act = 3%nat /\ Forall (between (- m) m) act /\
  (ok = true <-> exists act', length act' = 3%nat /\ Forall (between (- m) m) act' /\ abc_to_dq act' eps false = Ok [ud; uq]) /\
  (ok = true -> abc_to_dq act eps false = Ok [ud; uq]).
Proof.
  intros L H P. unfold foc_action. destruct (backward_ok ud uq eps) as (raw & B). rewrite B, L, H. cbn [bind]. pose proof (backward_length _ _ _ _ B) as LR. destruct (shifted raw) as [t|] eqn:Sh; [|discriminate]. cbn [bind]. intros E.
  set (a := map (fun x => np_clip x (- m) m) t) in E. assert (Ea : a = map (fun x => np_clip x (- m) m) t) by reflexivity. clearbody a. injection E as <- E2. rewrite Ea in E2. assert (LH : - m <= m) by lra. pose proof (unclipped_iff (- m) m t LH) as UI.
  destruct (shift_offset raw t Sh) as (k & T). assert (LT : length t = 3%nat) by (rewrite T, map_length; exact LR).
  assert (R1 : ok = true -> a = t) by (intros ->; apply UI in E2; rewrite Ea; apply clip_all, E2).
  assert (R2 : ok = true -> abc_to_dq a eps false = Ok [ud; uq]) by (intros O; rewrite (R1 O), T; apply backward_offset, B).
  split; [rewrite Ea, map_length; exact LT|]. split; [rewrite Ea; apply Forall_forall; intros x I; apply in_map_iff in I; destruct I as (z & <- & _); apply clip_between; exact LH|]. split; [|exact R2].
  split.
  - intros O. exists a. split; [rewrite Ea, map_length; exact LT|]. split; [|exact (R2 O)]. rewrite (R1 O). apply UI. rewrite E2. exact O.
  - intros (act' & L1 & F & D). destruct (same_dq_offset _ _ _ _ _ L1 D B) as (k' & K). rewrite <- E2. apply UI. apply (shift_best m raw t Sh). exists k'. rewrite <- K. exact F.
Qed.
Lemma foc_cont_pi k f pd pq state rd rq cd cq act : foc_cont k f (BPi pd, BPi pq) state rd rq = Ok (cd, cq, act) ->
  exists eps u0 id iq ok, foc_angle f state = Ok eps /\ foc_decouple k f state = Ok u0 /\ item state (fo_isd f) = Ok id /\ item state (fo_isq f) = Ok iq /\
    foc_action f (pi_control pd id rd + fst u0) (pi_control pq iq rq + snd u0) eps = Ok (act, ok) /\
    (ok = true -> cd = BPi (pi_integrate pd id rd) /\ cq = BPi (pi_integrate pq iq rq)) /\ (ok = false -> cd = BPi pd /\ cq = BPi pq).
Proof.
  unfold foc_cont. intros H. ub H. cbn [fst snd b_control] in H. destruct (foc_action _ _ _ _) as [[av ok]|] eqn:FA in H; [|discriminate]. cbn [bind snd fst] in H. destruct ok; cbn [b_integrate bind] in H; injection H as <- <- <-; do 5 eexists; repeat (split; [first [reflexivity|eassumption]|]); split; intros O; try discriminate O; split; reflexivity.
Qed.

Lemma cc_run_params rs c h x : two_stage rs c -> cc_run c h = Ok x -> cc_ref_idx (fst x) = cc_ref_idx c /\ cc_lolim (fst x) = cc_lolim c /\ cc_hilim (fst x) = cc_hilim c.
Proof.
  revert c x. induction h as [|[s r|] h IH]; intros c x T.
  - cbn. intros H. injection H as <-. auto.
  - cbn [cc_run]. destruct (cc_control c s r) as [y|] eqn:E; [|discriminate]. cbn [bind]. destruct (cc_run (fst y) h) as [z|] eqn:F; [|discriminate]. cbn [bind]. intros H. injection H as <-. cbn [fst].
    destruct (cc_control_two _ _ _ _ _ T E) as (T' & _ & I1 & I2 & I3 & _). destruct (IH _ _ T' F) as (J1 & J2 & J3). rewrite J1, J2, J3. auto.
  - cbn [cc_run]. intros H. exact (IH (cc_reset c) x (cc_reset_two _ _ T) H).
Qed.
Lemma cc_new_two e s0 s1 refs c : en_extex e = false -> cc_new e (SList [s0; s1]) refs = Ok c -> exists rn rs, refs = [rn] /\ str_index rn (en_names e) = Ok rs /\ two_stage rs c /\ cc_ref_idx c = 0%nat.
Proof.
  intros X Nw. destruct (cc_new_plain _ _ _ _ X Nw) as (rn & rs & P1 & P2 & P3 & P4 & P5 & P6 & P7 & P8 & P9). exists rn, rs. split; [exact P6|]. split; [exact P8|]. split; [|exact P9].
  assert (L : length (cc_stages c) = 2%nat). { cbn [make_stages] in P4. ub P4. ub U0. injection U0 as <-. injection P4 as <-. reflexivity. } repeat split; auto. rewrite P5. exact L.
Qed.

(** ** Discrete field oriented control *)
Lemma on_off_levels e s b : st_type s = "on_off" -> en_space e = SDisc 8 -> base_make e s false false = Ok b -> exists c, b = BOnOff c /\ oo_on c = 1%Z /\ oo_off c = 0%Z /\ (oo_action c = 0 \/ oo_action c = 1)%Z.
Proof. intros T Sp. unfold base_make, off_level. rewrite T, Sp. cbn. intros H. injection H as <-. eexists. split; [reflexivity|]. cbn. auto. Qed.
Definition bit (b : base) : Prop := exists c, b = BOnOff c /\ oo_on c = 1%Z /\ oo_off c = 0%Z /\ (oo_action c = 0 \/ oo_action c = 1)%Z.
Lemma bit_control b s r : bit b -> bit (fst (b_control b s r)) /\ exists k, snd (b_control b s r) = IZR k /\ (k = 0 \/ k = 1)%Z.
Proof.
  intros (c & -> & A & B & C). cbn [b_control]. unfold oo_control. rewrite A, B. set (a := if rlt (oo_h c) (r - s) then 1%Z else if rlt (r - s) (oo_h c) then 0%Z else oo_action c).
  assert (Ha : (a = 0 \/ a = 1)%Z) by (unfold a; destruct (rlt (oo_h c) (r - s)); [auto|]; destruct (rlt (r - s) (oo_h c)); auto). clearbody a. cbn. split.
  - eexists. split; [reflexivity|]. cbn. auto.
  - exists a. auto.
Qed.
Lemma foc_disc_bits f iabc c0 c1 c2 s rd rq x : bit c0 -> bit c1 -> bit c2 -> foc_disc f iabc [c0; c1; c2] s rd rq = Ok x ->
  (exists d0 d1 d2, fst x = [d0; d1; d2] /\ bit d0 /\ bit d1 /\ bit d2) /\ valid_action 8 (snd x).
Proof.
  intros B0 B1 B2. unfold foc_disc. intros H. ub H.
  repeat match goal with [ K : at_ [c0; c1; c2] _ = Ok _ |- _ ] => cbn in K; injection K as <- end.
  match type of H with context [b_control c0 ?u ?v] => pose proof (bit_control c0 u v B0) as K0; destruct (b_control c0 u v) as [d0 y0] end.
  match type of H with context [b_control c1 ?u ?v] => pose proof (bit_control c1 u v B1) as K1; destruct (b_control c1 u v) as [d1 y1] end.
  match type of H with context [b_control c2 ?u ?v] => pose proof (bit_control c2 u v B2) as K2; destruct (b_control c2 u v) as [d2 y2] end.
  injection H as <-. cbn [fst snd] in *. destruct K0 as (D0 & k0 & E0 & Z0), K1 as (D1 & k1 & E1 & Z1), K2 as (D2 & k2 & E2 & Z2). split; [exists d0, d1, d2; auto|]. exists (4 * k0 + 2 * k1 + k2)%Z. split; [rewrite E0, E1, E2, !plus_IZR, !mult_IZR; reflexivity|]. lia.
Qed.
Lemma fd_run_bits f iabc h : forall c0 c1 c2 l, bit c0 -> bit c1 -> bit c2 -> fd_run f iabc [c0; c1; c2] h = Ok l -> Forall (valid_action 8) l.
Proof.
  induction h as [|[[s rd] rq] h IH]; intros c0 c1 c2 l B0 B1 B2 H; cbn [fd_run] in H; [injection H as <-; constructor|].
  destruct (foc_disc f iabc [c0; c1; c2] s rd rq) as [x|] eqn:E; [|discriminate]. cbn [bind] in H. destruct (foc_disc_bits _ _ _ _ _ _ _ _ _ B0 B1 B2 E) as ((d0 & d1 & d2 & D & D0 & D1 & D2) & V). rewrite D in H. destruct (fd_run f iabc [d0; d1; d2] h) as [y|] eqn:G; [|discriminate]. injection H as <-. constructor; [exact V|]. eapply IH; [exact D0|exact D1|exact D2|exact G].
Qed.
