(** Proofs about the automatic controller design for three-phase motors: the controllers in
    histories. *)
From Verif Require Import Ops_Model Ops_Proofs Ops_Props Ops_Props2.
From Verif Require Import PyBase PyBaseFacts PyDict PyDictFacts Transform_Model PhysSys_Model Preset_Model Preset_Props Full_Spec
  Ex_Model Ex_Model2 Ex_Spec Ex_Proofs Ex_Proofs2 Ex_Proofs3 Ex_Proofs5 Ex_Model3 Ex_Spec2 Ex_Proofs6 Ex_Proofs7 Design_Model Design_Spec Design_Proofs Design_Model2 Design_Spec2.
From Coq Require Import Lia Lra ZArith.
Local Open Scope string_scope.
Local Open Scope list_scope.
Local Open Scope R_scope.

(** ** The speed loop *)
Record sl_fix (n : nat) (omega : bool) (l : slp) : Prop := {
  sf_rsi : exists a b c, (c < n)%nat /\ sl_rsi l = [a; b; c] ++ (if omega then [0%nat] else []);
  sf_n : (0 < n)%nat; sf_low : length (sl_low l) = n; sf_high : length (sl_high l) = n; sf_lim : length (sl_lim l) = n; sf_nom : length (sl_nom l) = n }.
Definition over_ok (omega : bool) (over : list base) : Prop := if omega then exists b, over = [b] /\ is_cont b = true else over = [].
Definition ref_len (omega : bool) : nat := if omega then 4%nat else 3%nat.
Lemma sl_ok n l omega x r over ref : length x = n -> (0 < length r)%nat -> sl_fix n omega l -> length ref = ref_len omega -> over_ok omega over ->
  exists y, sl_refs l omega x r (over, ref) = Ok y /\ over_ok omega (fst y) /\ length (snd y) = ref_len omega.
Proof.
  intros Lx Lr [(i0 & i1 & i2 & I2 & S1) S0 S2 S3 S4 S5] Lf O. unfold sl_refs. itm r 0%nat rv. cbn [fst snd]. unfold set_back. rewrite Lf. destruct omega; cbn [ref_len Nat.ltb Nat.leb Nat.sub bind] in *.
  - destruct O as (b & -> & Cb). destruct ref as [|r0 [|r1 [|r2 [|r3 [|]]]]]; try discriminate Lf. cbn [list_set length sl_range seq rev app sl_loop]. unfold sl_stage. rewrite S1. cbn [app fst snd Nat.sub at_ nth_error bind].
    itm x 0%nat x0. cbn [item nth_error bind]. pose proof (is_cont_control b x0 rv) as C1. destruct (b_control b x0 rv) as [b1 y]. cbn [fst] in C1. rewrite Cb in C1.
    itm (sl_low l) i2 lo. itm (sl_high l) i2 hi. rewrite Cb. destruct (rle _ y && rle y _ && true).
    + destruct (integrate_cont b1 x0 rv C1) as (b2 & -> & C2). cbn [bind list_set]. eexists. split; [reflexivity|]. split; [exists b2; auto|reflexivity].
    + itm (sl_nom l) i2 no. itm (sl_lim l) i2 li. cbn [bind list_set]. eexists. split; [reflexivity|]. split; [exists b1; auto|reflexivity].
  - eexists. split; [reflexivity|]. split; [exact O|]. cbn [snd]. rewrite list_set_length. exact Lf.
Qed.
Lemma over_reset omega over : over_ok omega over -> over_ok omega (map b_reset over).
Proof. destruct omega; cbn; [intros (b & -> & C); exists (b_reset b); rewrite b_reset_cont; auto|intros ->; reflexivity]. Qed.

(** ** Cascaded field oriented control *)
Record foc_fix (n : nat) (f : foc_par) : Prop := {
  ff_isd : (fo_isd f < n)%nat; ff_isq : (fo_isq f < n)%nat; ff_usd : (fo_usd f < n)%nat; ff_usq : (fo_usq f < n)%nat; ff_om : (fo_omega f < n)%nat; ff_eps : (fo_eps f < n)%nat;
  ff_lim : length (fo_limit f) = n }.
Lemma angle_ok n f x : foc_fix n f -> length x = n -> exists v, foc_angle f x = Ok v.
Proof. intros [F1 F2 F3 F4 F5 F6 F7] L. unfold foc_angle. itm x (fo_eps f) a. itm (fo_limit f) (fo_eps f) b. itm x (fo_omega f) c. itm (fo_limit f) (fo_omega f) d. eauto. Qed.
Lemma decouple_ok n f x : foc_fix n f -> length x = n -> exists v, foc_decouple (fo_usd f) f x = Ok v.
Proof.
  intros [F1 F2 F3 F4 F5 F6 F7] L. unfold foc_decouple, foc_usd0, foc_usq0. destruct (fo_dec f); [|eauto]. itm x (fo_omega f) a. itm x (fo_isq f) b. itm (fo_limit f) (fo_isq f) c. itm (fo_limit f) (fo_usd f) d. itm (fo_limit f) (fo_omega f) e0.
  itm x (fo_isd f) g. itm (fo_limit f) (fo_usq f) k. eauto.
Qed.
Lemma fa_ok f ud uq eps : fo_lo f = -1 -> fo_hi f = 1 -> exists a ok, foc_action f ud uq eps = Ok (a, ok) /\ box_action a.
Proof.
  intros L H. unfold foc_action. destruct (backward_ok ud uq eps) as (raw & B). pose proof (backward_length _ _ _ _ B) as LR. rewrite B. cbn [bind]. destruct raw as [|a [|b [|c [|]]]]; try discriminate LR.
  unfold shifted. cbn [list_max list_min bind map]. do 2 eexists. split; [reflexivity|]. rewrite L, H. split; [reflexivity|].
  repeat (apply Forall_cons; [apply clip_between; lra|]). apply Forall_nil.
Qed.
Lemma cfoc_cont_ok n f cs x rd rq : foc_fix n f -> length x = n -> fo_lo f = -1 -> fo_hi f = 1 -> is_cont (fst cs) = true -> is_cont (snd cs) = true ->
  exists cs' a, cfoc_cont f cs x rd rq = Ok (cs', a) /\ is_cont (fst cs') = true /\ is_cont (snd cs') = true /\ box_action a.
Proof.
  intros F L H1 H2 C1 C2. unfold cfoc_cont, foc_cont. destruct (angle_ok n f x F L) as (eps & ->). cbn [bind]. destruct (decouple_ok n f x F L) as (u0 & ->). cbn [bind]. destruct F as [F1 F2 F3 F4 F5 F6 F7].
  itm x (fo_isd f) a. itm x (fo_isq f) b. pose proof (is_cont_control (fst cs) a rd) as D1. pose proof (is_cont_control (snd cs) b rq) as D2. destruct (b_control (fst cs) a rd) as [cd yd], (b_control (snd cs) b rq) as [cq yq]. cbn [fst] in D1, D2. rewrite C1 in D1. rewrite C2 in D2.
  destruct (fa_ok f (yd + fst u0) (yq + snd u0) eps H1 H2) as (act & ok & -> & A). cbn [bind snd fst]. destruct ok.
  - destruct (integrate_cont cd a rd D1) as (cd' & -> & D1'). cbn [bind]. destruct (integrate_cont cq b rq D2) as (cq' & -> & D2'). cbn [bind]. do 2 eexists. split; [reflexivity|]. cbn [fst snd]. auto.
  - do 2 eexists. split; [reflexivity|]. cbn [fst snd]. auto.
Qed.
Lemma foc_disc_ok n f i0 i1 i2 c0 c1 c2 x rd rq : foc_fix n f -> length x = n -> (i0 < n)%nat -> (i1 < n)%nat -> (i2 < n)%nat -> Forall (valid_base 2) [c0; c1; c2] ->
  exists cs' v, foc_disc f [i0; i1; i2] [c0; c1; c2] x rd rq = Ok (cs', v) /\ length cs' = 3%nat /\ Forall (valid_base 2) cs' /\ valid_action 8 v.
Proof.
  intros F L I0 I1 I2 V. pose proof (Forall_inv V) as V0. apply Forall_inv_tail in V. pose proof (Forall_inv V) as V1. apply Forall_inv_tail in V. pose proof (Forall_inv V) as V2. clear V.
  unfold foc_disc. destruct (angle_ok n f x F L) as (eps & ->). cbn [bind]. destruct (backward_ok rd rq eps) as (raw & B). pose proof (backward_length _ _ _ _ B) as LR. rewrite B. cbn [bind at_ nth_error]. destruct raw as [|a [|b [|c [|]]]]; try discriminate LR.
  itm x i0 x0. itm x i1 x1. itm x i2 x2. cbn [item nth_error bind]. pose proof (valid_control 2 c0 x0 a V0) as W0. pose proof (valid_control 2 c1 x1 b V1) as W1. pose proof (valid_control 2 c2 x2 c V2) as W2.
  destruct (b_control c0 x0 a) as [d0 a0], (b_control c1 x1 b) as [d1 a1], (b_control c2 x2 c) as [d2 a2]. destruct W0 as [W0 (k0 & -> & K0)], W1 as [W1 (k1 & -> & K1)], W2 as [W2 (k2 & -> & K2)].
  do 2 eexists. split; [reflexivity|]. split; [reflexivity|]. split; [repeat (apply Forall_cons; [assumption|]); apply Forall_nil|].
  exists (4 * k0 + 2 * k1 + k2)%Z. split; [rewrite !plus_IZR, !mult_IZR; reflexivity|lia].
Qed.
Record cf_fix (n : nat) (box : bool) (c : cfoc) : Prop := {
  cx_torque : cf_torque c = true; cx_sl : sl_fix n (cf_omega c) (cf_sl c); cx_tq : (cf_tq c < n)%nat; cx_par : foc_fix n (cf_par c);
  cx_box : if box then fo_lo (cf_par c) = -1 /\ fo_hi (cf_par c) = 1
           else exists i0 i1 i2, cf_iabc c = [i0; i1; i2] /\ (i0 < n)%nat /\ (i1 < n)%nat /\ (i2 < n)%nat }.
Record cf_inv (box omega : bool) (s : cfocs) : Prop := {
  cy_over : over_ok omega (fs_over s); cy_ref : length (fs_ref s) = ref_len omega;
  cy_ctl : match fs_ctl s with CDq cs => box = true /\ is_cont (fst cs) = true /\ is_cont (snd cs) = true
                             | CAbc l => box = false /\ length l = 3%nat /\ Forall (valid_base 2) l end }.
Definition cf_action (box : bool) (a : list R) : Prop := if box then box_action a else exists v, a = [v] /\ valid_action 8 v.
Section Cfoc.
Context {T : Type} (conv : T -> list R -> R -> res (T * (R * R))) (creset : T -> T) (n : nat) (box : bool) (c : cfoc).
Hypothesis Fx : cf_fix n box c.
Lemma cf_step ts s x r : cf_inv box (cf_omega c) s -> length x = n -> (0 < length r)%nat ->
  match cfoc_step conv c ts s x r with
  | Ok o => cf_inv box (cf_omega c) (snd (fst o)) /\ cf_action box (snd o)
  | Err e => exists ts' st t, conv ts' st t = Err e
  end.
Proof.
  intros [I1 I2 I3] Lx Lr. destruct Fx as [F1 F2 F3 F4 F5]. unfold cfoc_step.
  destruct (sl_ok n (cf_sl c) (cf_omega c) x r (fs_over s) (fs_ref s) Lx Lr F2 I2 I1) as ([over ref] & E & O & Rf). cbn [fst snd] in O, Rf.
  assert (R3 : exists r0 r1 r2 rest, ref = r0 :: r1 :: r2 :: rest) by (destruct (cf_omega c); cbn in Rf; destruct ref as [|r0 [|r1 [|r2 rest]]]; try discriminate Rf; do 4 eexists; reflexivity).
  destruct R3 as (r0 & r1 & r2 & rest & ->). destruct (item_ok (fo_limit (cf_par c)) (cf_tq c)) as (lt & El); [rewrite (ff_lim _ _ F4); exact F3|].
  destruct (fs_ctl s) as [cs|l].
  - destruct I3 as (-> & C1 & C2). unfold cfoc_control. rewrite E, F1. cbn [bind fst snd item nth_error]. rewrite El. cbn [bind]. destruct (conv ts x (r2 * lt)) as [o|e] eqn:EC; cbn [bind]; [|eauto].
    cbn [fst snd list_set item nth_error bind]. destruct F5 as [F5 F6]. destruct (cfoc_cont_ok n (cf_par c) cs x (snd (snd o)) (fst (snd o)) F4 Lx F5 F6 C1 C2) as (cs' & a & -> & D1 & D2 & A). cbn [bind fst snd]. split; [|exact A]. constructor; cbn [fs_over fs_ref fs_ctl]; auto.
  - destruct I3 as (-> & L3 & V). rewrite E, F1. cbn [bind fst snd item nth_error]. rewrite El. cbn [bind]. destruct (conv ts x (r2 * lt)) as [o|e] eqn:EC; cbn [bind]; [|eauto].
    cbn [fst snd list_set item nth_error bind]. destruct F5 as (i0 & i1 & i2 & -> & J0 & J1 & J2). destruct l as [|c0 [|c1 [|c2 [|]]]]; try discriminate L3. destruct (foc_disc_ok n (cf_par c) i0 i1 i2 c0 c1 c2 x (snd (snd o)) (fst (snd o)) F4 Lx J0 J1 J2 V) as (cs' & v & -> & L' & V' & A).
    cbn [bind fst snd]. split; [constructor; cbn [fs_over fs_ref fs_ctl]; auto|]. exists v. auto.
Qed.
Lemma cf_total k : (0 < k)%nat -> forall h ts s, cf_inv box (cf_omega c) s -> Forall (sized n k) h ->
  match cf_run conv creset c ts s h with Ok l => Forall (cf_action box) l | Err x => exists ts' st t, conv ts' st t = Err x end.
Proof.
  intros K. induction h as [|[x r|] h IH]; intros ts s V F; cbn [cf_run].
  - constructor.
  - pose proof (Forall_inv F) as FA; cbn [sized] in FA; destruct FA as [A B]; apply Forall_inv_tail in F. pose proof (cf_step ts s x r V A ltac:(lia)) as S. destruct (cfoc_step conv c ts s x r) as [o|e]; cbn [bind]; [|exact S].
    destruct S as [S1 S2]. specialize (IH (fst (fst o)) _ S1 F). destruct (cf_run _ _ _ _ _ h) as [l|e]; cbn [bind]; [constructor; assumption|exact IH].
  - apply Forall_inv_tail in F. apply IH; [|exact F]. destruct V as [V1 V2 V3]. constructor; cbn [cfoc_reset fs_over fs_ref fs_ctl].
    + apply over_reset, V1.
    + exact V2.
    + destruct (fs_ctl s) as [cs|l]; [cbn [fst snd]; rewrite !b_reset_cont; exact V3|]. destruct V3 as (A & B & C). split; [exact A|]. rewrite map_length. split; [exact B|]. apply Forall_map. revert C. apply Forall_impl. intros b. apply valid_reset.
Qed.
End Cfoc.

(** ** Control of induction motors *)
Record im_fix (n : nat) (c : imcp) : Prop := {
  ix_isd : (cp_isd c < n)%nat; ix_isq : (cp_isq c < n)%nat; ix_om : (cp_om c < n)%nat; ix_u : exists a b d, cp_u c = [a; b; d] /\ (a < n)%nat /\ (b < n)%nat /\ (d < n)%nat;
  ix_fi : exists a b d, fb_i (cp_fb c) = [a; b; d] /\ (a < n)%nat /\ (b < n)%nat /\ (d < n)%nat; ix_fo : (fb_omega (cp_fb c) < n)%nat; ix_lim : length (cp_limits c) = n }.
Lemma map2_len (x l : list R) : length x = length l -> length (map2 Rmult x l) = length l.
Proof. revert l. induction x as [|a x IH]; intros [|b l] H; try discriminate H; [reflexivity|]. cbn in *. rewrite IH; congruence. Qed.
Lemma select3 {A} (l : list A) a b d n : length l = n -> (a < n)%nat -> (b < n)%nat -> (d < n)%nat -> exists x y z, select [a; b; d] l = Ok [x; y; z].
Proof.
  intros L Ha Hb Hd. assert (K : forall i, (i < n)%nat -> exists v, nth_error l i = Some v) by (intros i Hi; destruct (nth_error l i) eqn:E; [eauto|]; apply nth_error_None in E; lia).
  destruct (K a Ha) as (x & X), (K b Hb) as (y & Y), (K d Hd) as (z & Z). exists x, y, z. cbn [select]. rewrite X, Y, Z. reflexivity.
Qed.
Lemma estimate_ok n c psi x : im_fix n c -> length x = n -> exists f, fb_estimate (cp_fb c) psi (map2 Rmult x (cp_limits c)) = Ok f.
Proof.
  intros [I1 I2 I3 I4 (a & b & d & I5 & Ha & Hb & Hd) I6 I7] L. unfold fb_estimate. rewrite I5. assert (LL : length (map2 Rmult x (cp_limits c)) = n) by (rewrite map2_len; congruence).
  destruct (select3 _ a b d n LL Ha Hb Hd) as (i & j & k & ->). cbn [bind]. itm (map2 Rmult x (cp_limits c)) (fb_omega (cp_fb c)) w. cbn [t_23 matvec]. cbn. eexists. reflexivity.
Qed.
Lemma voltage_parts n c d q x rq rd psi an : im_fix n c -> length x = n -> is_cont d = true -> is_cont q = true ->
  (length (cp_alow c) = 3%nat -> exists d' q' a, imc_voltage c d q x rq rd psi an = Ok (d', q', a) /\ is_cont d' = true /\ is_cont q' = true /\
     (cp_alow c = [-1; -1; -1] -> cp_ahigh c = [1; 1; 1] -> box_action a)) /\
  (length (cp_alow c) <> 3%nat -> imc_voltage c d q x rq rd psi an = Err ValueError).
Proof.
  intros [I1 I2 I3 (a & b & e & I4 & Ha & Hb & He) I5 I6 I7] L C1 C2. unfold imc_voltage. assert (LL : length (map2 Rmult x (cp_limits c)) = n) by (rewrite map2_len; congruence). cbv zeta.
  itm (map2 Rmult x (cp_limits c)) (cp_om c) w. itm (map2 Rmult x (cp_limits c)) (cp_isd c) sd. itm (map2 Rmult x (cp_limits c)) (cp_isq c) sq. itm (cp_limits c) (cp_isd c) ld. itm (cp_limits c) (cp_isq c) lq.
  pose proof (is_cont_control d sd (rd * ld)) as D1. pose proof (is_cont_control q sq (rq * lq)) as D2. destruct (b_control d sd (rd * ld)) as [d1 yd], (b_control q sq (rq * lq)) as [q1 yq]. cbn [fst] in D1, D2. rewrite C1 in D1. rewrite C2 in D2.
  set (u0 := if cp_dec c then _ else _). unfold imc_action. assert (EB : dq_to_abc [fst u0 + yd; snd u0 + yq] an false = backward (fst u0 + yd) (snd u0 + yq) an) by reflexivity. rewrite EB. destruct (backward_ok (fst u0 + yd) (snd u0 + yq) an) as (raw & B). pose proof (backward_length _ _ _ _ B) as LR. rewrite B. cbn [bind].
  rewrite I4. destruct (select3 _ a b e n I7 Ha Hb He) as (i & j & k & ->). cbn [bind]. destruct raw as [|v0 [|v1 [|v2 [|]]]]; try discriminate LR. cbn [map2 length]. split; intros LA.
  - rewrite LA. cbn [Nat.eqb bind snd fst]. match goal with |- context [forallb ?f (combine ?A ?B)] => set (act := A); set (ok := forallb f (combine act B)) end. assert (BA : cp_alow c = [-1; -1; -1] -> cp_ahigh c = [1; 1; 1] -> box_action act).
    { intros E1 E2. unfold act. rewrite E1, E2. cbn [combine map2 fst snd]. split; [reflexivity|]. repeat (apply Forall_cons; [apply clip_between; lra|]). apply Forall_nil. }
    destruct ok.
    + destruct (integrate_cont d1 sd (rd * ld) D1) as (d2 & -> & E1). cbn [bind]. destruct (integrate_cont q1 sq (rq * lq) D2) as (q2 & -> & E2). cbn [bind]. do 3 eexists. split; [reflexivity|]. auto.
    + do 3 eexists. split; [reflexivity|]. auto.
  - destruct (Nat.eqb_spec 3 (length (cp_alow c))) as [E|E]; [congruence|]. reflexivity.
Qed.
Lemma imf_step n k c rd rq s x r : im_fix n c -> cp_alow c = [-1; -1; -1] -> cp_ahigh c = [1; 1; 1] -> (rd < k)%nat -> (rq < k)%nat ->
  (exists cs, snd s = Some cs /\ is_cont (fst cs) = true /\ is_cont (snd cs) = true) -> length x = n -> length r = k ->
  exists s' a, imf_control rd rq c s x r = Ok (s', a) /\ (exists cs, snd s' = Some cs /\ is_cont (fst cs) = true /\ is_cont (snd cs) = true) /\ box_action a.
Proof.
  intros F A1 A2 K1 K2 (cs & S & C1 & C2) Lx Lr. unfold imf_control. destruct (estimate_ok n c (fst s) x F Lx) as (f & ->). cbn [bind]. rewrite S. itm r rd vd. itm r rq vq.
  destruct (voltage_parts n c (fst cs) (snd cs) x vq vd (fst (snd f)) (snd (snd f)) F Lx C1 C2) as [V _]. destruct (V ltac:(rewrite A1; reflexivity)) as (d' & q' & a & -> & D1 & D2 & BA). cbn [bind fst snd]. do 2 eexists. split; [reflexivity|]. split; [|auto].
  eexists. split; [reflexivity|]. auto.
Qed.
Lemma imf_total n k c rd rq : im_fix n c -> cp_alow c = [-1; -1; -1] -> cp_ahigh c = [1; 1; 1] -> (rd < k)%nat -> (rq < k)%nat ->
  forall h s, (exists cs, snd s = Some cs /\ is_cont (fst cs) = true /\ is_cont (snd cs) = true) -> Forall (sized n k) h -> exists l, imf_run rd rq c s h = Ok l /\ Forall box_action l.
Proof.
  intros Fx A1 A2 K1 K2. induction h as [|[x r|] h IH]; intros s V F; cbn [imf_run].
  - eexists. split; [reflexivity|constructor].
  - pose proof (Forall_inv F) as FA; cbn [sized] in FA; destruct FA as [A B]; apply Forall_inv_tail in F. destruct (imf_step n k c rd rq s x r Fx A1 A2 K1 K2 V A B) as (s' & a & -> & V' & BA). cbn [bind fst snd]. destruct (IH s' V' F) as (l & -> & Fl). cbn [bind]. eexists. split; [reflexivity|]. constructor; assumption.
  - apply Forall_inv_tail in F. destruct V as (cs & S & C1 & C2). unfold imf_reset. rewrite S. cbn [bind]. apply IH; [|exact F]. eexists. split; [reflexivity|]. cbn [fst snd]. rewrite !b_reset_cont. auto.
Qed.
Lemma imf_useless n k c rd rq s0 : im_fix n c -> length (cp_alow c) <> 3%nat ->
  (forall cs, snd s0 = Some cs -> is_cont (fst cs) = true /\ is_cont (snd cs) = true) -> forall h, Forall (sized n k) h -> forall l, imf_run rd rq c s0 h = Ok l -> l = [].
Proof.
  intros Fx A V0 h. revert s0 V0. induction h as [|[x r|] h IH]; intros s V F l H; cbn [imf_run] in H.
  - apply ok_inj in H. congruence.
  - exfalso. pose proof (Forall_inv F) as FA; cbn [sized] in FA; destruct FA as [Lx _]. unfold imf_control in H. destruct (estimate_ok n c (fst s) x Fx Lx) as (f & E). rewrite E in H. cbn [bind] in H. destruct (snd s) as [cs|]; [|discriminate H]. destruct (V cs eq_refl) as [C1 C2].
    destruct (item r rd) as [vd|]; [|discriminate H]. cbn [bind] in H. destruct (item r rq) as [vq|]; [|discriminate H]. cbn [bind] in H. destruct (voltage_parts n c (fst cs) (snd cs) x vq vd (fst (snd f)) (snd (snd f)) Fx Lx C1 C2) as [_ W]. rewrite (W A) in H. discriminate H.
  - apply Forall_inv_tail in F. unfold imf_reset in H. destruct (snd s) as [cs|]; [|discriminate H]. cbn [bind] in H. destruct (V cs eq_refl) as [C1 C2]. refine (IH _ _ F l H). intros cs' E. cbn [snd] in E. apply some_inj in E. subst cs'. cbn [fst snd]. rewrite !b_reset_cont. auto.
Qed.

(** The cascaded controller *)
Record ic_fix (n : nat) (c : imcp) : Prop := {
  iy_im : im_fix n c; iy_torque : cp_torque c = true; iy_sl : sl_fix n (cp_omega c) (cp_sl c); iy_tq : (cp_tq c < n)%nat; iy_t : exists m, cp_t c = Some m }.
Record ic_inv (omega : bool) (s : imcs) : Prop := {
  iz_over : over_ok omega (cs_over s); iz_ref : length (cs_ref s) = ref_len omega; iz_d : is_cont (cs_d s) = true; iz_q : is_cont (cs_q s) = true; iz_t : exists t, cs_t s = Some t }.
Definition conversion_total (n : nat) (c : imcp) : Prop := forall m s x t psi, cp_t c = Some m -> length x = n -> exists o, imt_control m s x t psi = Ok o.
Lemma ic_step n c s x r : ic_fix n c -> ic_inv (cp_omega c) s -> length x = n -> (0 < length r)%nat ->
  (length (cp_alow c) = 3%nat -> match imc_control c s x r with
    | Ok None => True | Ok (Some (s', a)) => ic_inv (cp_omega c) s' /\ (cp_alow c = [-1; -1; -1] -> cp_ahigh c = [1; 1; 1] -> box_action a)
    | Err _ => ~ conversion_total n c end) /\
  (length (cp_alow c) <> 3%nat -> forall o, imc_control c s x r <> Ok (Some o)).
Proof.
  intros [F1 F2 F3 F4 (m & F5)] [I1 I2 I3 I4 (ts & I5)] Lx Lr. unfold imc_control. destruct (estimate_ok n c (cs_flux s) x F1 Lx) as (f & ->). cbn [bind]. cbv zeta.
  destruct (sl_ok n (cp_sl c) (cp_omega c) x r (cs_over s) (cs_ref s) Lx Lr F3 I2 I1) as ([over ref] & E & O & Rf). cbn [fst snd] in O, Rf. rewrite E. cbn [bind fst snd].
  assert (R3 : exists r0 r1 r2 rest, ref = r0 :: r1 :: r2 :: rest) by (destruct (cp_omega c); cbn in Rf; destruct ref as [|r0 [|r1 [|r2 rest]]]; try discriminate Rf; do 4 eexists; reflexivity).
  destruct R3 as (r0 & r1 & r2 & rest & ->). unfold imc_torque. rewrite F2, F5, I5. cbn [item nth_error bind]. pose proof (ix_lim _ _ F1) as Ll. itm (cp_limits c) (cp_tq c) tlim.
  destruct (imt_control m ts x (r2 * tlim) (fst (snd f))) as [o|e] eqn:EC; cbn [bind fst snd].
  - destruct (fst (fst (snd o))) as [rq|]; [|split; [auto|intros _ o'; discriminate]].
    destruct (voltage_parts n c (cs_d s) (cs_q s) x rq (snd (fst (snd o))) (fst (snd f)) (snd (snd f)) F1 Lx I3 I4) as [V W]. split; intros LA.
    + destruct (V LA) as (d' & q' & a & -> & D1 & D2 & BA). cbn [bind fst snd]. split; [|exact BA]. constructor; cbn [cs_over cs_ref cs_d cs_q cs_t]; auto; try (rewrite !list_set_length; exact Rf); eauto.
    + rewrite (W LA). cbn [bind]. intros o'. discriminate.
  - split; [intros _ CT; destruct (CT m ts x (r2 * tlim) (fst (snd f)) F5 Lx) as (o & H); congruence|intros _ o; discriminate].
Qed.
Lemma ic_reset omega s : ic_inv omega s -> ic_inv omega (imc_reset s).
Proof.
  intros [I1 I2 I3 I4 (ts & I5)]. constructor; cbn [imc_reset cs_over cs_ref cs_d cs_q cs_t]; rewrite ?b_reset_cont; auto; [apply over_reset, I1|]. rewrite I5. eauto.
Qed.
Lemma ic_total n k c : ic_fix n c -> (0 < k)%nat -> cp_alow c = [-1; -1; -1] -> cp_ahigh c = [1; 1; 1] -> forall h s, ic_inv (cp_omega c) s -> Forall (sized n k) h ->
  match imc_run c s h with Ok None => True | Ok (Some (_, l)) => Forall box_action l | Err _ => ~ conversion_total n c end.
Proof.
  intros Fx K A1 A2. induction h as [|[x r|] h IH]; intros s V F; cbn [imc_run].
  - constructor.
  - pose proof (Forall_inv F) as FA; cbn [sized] in FA; destruct FA as [A B]; apply Forall_inv_tail in F. destruct (ic_step n c s x r Fx V A ltac:(lia)) as [S _]. specialize (S ltac:(rewrite A1; reflexivity)). destruct (imc_control c s x r) as [[[s' a]|]|e]; cbn [bind]; [|exact Logic.I|exact S].
    destruct S as [S1 S2]. specialize (IH s' S1 F). destruct (imc_run c s' h) as [[[s2 l]|]|e]; cbn [bind]; [|exact Logic.I|exact IH]. constructor; auto.
  - apply Forall_inv_tail in F. apply IH; [apply ic_reset, V|exact F].
Qed.
Lemma ic_useless n k c : ic_fix n c -> (0 < k)%nat -> length (cp_alow c) <> 3%nat -> forall h s, ic_inv (cp_omega c) s -> Forall (sized n k) h -> forall s' l, imc_run c s h = Ok (Some (s', l)) -> l = [].
Proof.
  intros Fx K A1. induction h as [|[x r|] h IH]; intros s V F s' l H; cbn [imc_run] in H.
  - congruence.
  - exfalso. pose proof (Forall_inv F) as FA; cbn [sized] in FA; destruct FA as [A B]. destruct (ic_step n c s x r Fx V A ltac:(lia)) as [_ S]. specialize (S A1). destruct (imc_control c s x r) as [[[s2 a]|]|e]; cbn [bind] in H; try discriminate H. exact (S _ eq_refl).
  - apply Forall_inv_tail in F. exact (IH _ (ic_reset _ _ V) F s' l H).
Qed.
Lemma hollow_none h x r a : hollow_control h x r <> Ok a.
Proof.
  intros H. unfold hollow_control in H. ub6 H. destruct (ho_omega h); [discriminate H|]. destruct (ho_t h) as [[m s]|]; [|discriminate H]. ub6 H. discriminate H.
Qed.
