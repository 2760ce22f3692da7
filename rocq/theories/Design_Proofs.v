(** Proofs about the automatic controller design for DC motors: the controllers never raise. *)
From Verif Require Import PyBase PyBaseFacts PyDict PyDictFacts Transform_Model PhysSys_Model Preset_Model Preset_Props Full_Spec
  Ex_Model Ex_Model2 Ex_Spec Ex_Proofs Ex_Proofs2 Ex_Proofs3 Ex_Proofs5 Design_Model Design_Spec.
From Coq Require Import Lia Lra.
Local Open Scope string_scope.
Local Open Scope list_scope.
Local Open Scope R_scope.

Lemma item_ok l i : (i < length l)%nat -> exists v, item l i = Ok v.
Proof. intros H. unfold item. destruct (nth_error l i) eqn:E; [eauto|]. apply nth_error_None in E. lia. Qed.
Ltac itm l i v := let H := fresh "Hi" in destruct (item_ok l i) as (v & H); [try lia; try congruence|rewrite ?H; cbn [bind]].

Lemma integrate_cont b s r : is_cont b = true -> exists b', b_integrate b s r = Ok b' /\ is_cont b' = true.
Proof. destruct b; cbn; intros H; try discriminate; eexists; split; reflexivity. Qed.
Lemma limited_ok b lo hi u s r : lo <= hi -> is_cont b = true -> exists m, limited b lo hi u s r = Ok m /\ is_cont (fst m) = true /\ between lo hi (snd m).
Proof.
  intros L C. unfold limited. destruct (rleP lo u) as [A|A]; [destruct (rleP u hi) as [B|B]|]; cbn [andb].
  - destruct (integrate_cont b s r C) as (b' & -> & C'). cbn [bind]. eexists. split; [reflexivity|]. cbn. split; [exact C'|split; lra].
  - eexists. split; [reflexivity|]. cbn. split; [exact C|apply clip_between, L].
  - eexists. split; [reflexivity|]. cbn. split; [exact C|apply clip_between, L].
Qed.

(** ** Continuous action controller *)
Record ca_inv (n k w : nat) (exc : bool) (lo hi lo1 hi1 : R) (c : cac) : Prop := {
  ci_ref : (ca_ref c < k)%nat; ci_rs : (ca_ref_state c < n)%nat; ci_i : (ca_i c < n)%nat; ci_u : (ca_u c < n)%nat; ci_om : (ca_omega c < n)%nat;
  ci_nom : length (ca_nominal c) = n; ci_flux : (exists v, ca_psi c = Some v /\ v <> 0) \/ exists l, ca_l c = Some l;
  ci_lo : ca_low c = lo; ci_hi : ca_high c = hi; ci_ctl : is_cont (ca_ctl c) = true; ci_act : length (ca_action c) = w; ci_w : w = if exc then 2%nat else 1%nat;
  ci_exc : if exc then exists x, ca_exc c = Some x /\ (ex_ref x < k)%nat /\ ex_low x = lo1 /\ ex_high x = hi1 /\ is_cont (ex_ctl x) = true else ca_exc c = None }.
Lemma ca_ff_ok n k w exc lo hi lo1 hi1 c s : ca_inv n k w exc lo hi lo1 hi1 c -> length s = n -> exists f, ca_feedforward c s = Ok f.
Proof.
  intros [P1 P2 P3 P4 P5 P6 P7 P8 P9 P10 P11 P12 P13] L. unfold ca_feedforward.
  assert (K : exists psi, py_or (ca_psi c) (match ca_l c with None => Err TypeError | Some l => do i <- item s (ca_i c); do n <- item (ca_nominal c) (ca_i c); Ok (l * i * n) end) = Ok psi).
  { destruct P7 as [(v & -> & V)|(l & Hl)].
    - cbn. destruct (reqP v 0); [contradiction|]. eauto.
    - rewrite Hl. itm s (ca_i c) x. itm (ca_nominal c) (ca_i c) y. unfold py_or. destruct (ca_psi c); [destruct (req r 0)|]; eauto. }
  destruct K as (psi & ->). cbn [bind]. itm s (ca_omega c) x. itm (ca_nominal c) (ca_omega c) y. itm (ca_nominal c) (ca_u c) z. eauto.
Qed.
Lemma ca_step n k w exc lo hi lo1 hi1 c s r : lo <= hi -> lo1 <= hi1 -> ca_inv n k w exc lo hi lo1 hi1 c -> length s = n -> length r = k ->
  exists c' a, ca_control c s r = Ok (c', a) /\ ca_inv n k w exc lo hi lo1 hi1 c' /\ length a = w /\
    exists v, nth_error a 0 = Some v /\ between lo hi v /\ if exc then exists v1, nth_error a 1 = Some v1 /\ between lo1 hi1 v1 else True.
Proof.
  intros LH LH1 V Ls Lr. destruct (ca_ff_ok _ _ _ _ _ _ _ _ _ _ V Ls) as (ff & FF). pose proof V as [P1 P2 P3 P4 P5 P6 P7 P8 P9 P10 P11 P12 P13]. unfold ca_control.
  itm s (ca_ref_state c) x. itm r (ca_ref c) y. pose proof (is_cont_control (ca_ctl c) x y) as C0. destruct (b_control (ca_ctl c) x y) as [b u]. cbn [fst] in C0. rewrite P10 in C0.
  rewrite FF. cbn [bind]. destruct (limited_ok b (ca_low c) (ca_high c) (u + ff) x y ltac:(rewrite P8, P9; exact LH) C0) as (m & Em & Cm & Bm). rewrite Em. cbn [bind].
  assert (La : (0 < length (ca_action c))%nat) by (rewrite P11, P12; destruct exc; lia). itm (ca_action c) 0%nat v0. rewrite P8, P9 in Bm.
  pose proof (list_set_nth 0 (snd m) (ca_action c) La) as N0. pose proof (list_set_length 0 (snd m) (ca_action c)) as K0. set (a0 := list_set 0 (snd m) (ca_action c)) in *. clearbody a0.
  destruct exc.
  - destruct P13 as (e & E1 & E2 & E3 & E4 & E5). rewrite E1. cbn [bind]. itm s (ca_i c) xe. itm r (ex_ref e) ye. pose proof (is_cont_control (ex_ctl e) xe ye) as C1. destruct (b_control (ex_ctl e) xe ye) as [be ue]. cbn [fst] in C1. rewrite E5 in C1.
    destruct (limited_ok be (ex_low e) (ex_high e) ue xe ye ltac:(rewrite E3, E4; exact LH1) C1) as (me & -> & Cme & Bme). cbn [bind]. rewrite E3, E4 in Bme.
    assert (L1 : (1 < length a0)%nat) by (rewrite K0, P11, P12; lia). itm a0 1%nat v1.
    pose proof (list_set_nth 1 (snd me) a0 L1) as N1. pose proof (list_set_length 1 (snd me) a0) as K1. pose proof (list_set_other 1 0 (snd me) a0 ltac:(discriminate)) as N2. set (a1 := list_set 1 (snd me) a0) in *. clearbody a1.
    do 2 eexists. split; [reflexivity|]. cbn [fst snd]. split; [|split; [congruence|]].
    + constructor; cbn; auto; try congruence. eexists. split; [reflexivity|]. cbn. auto.
    + exists (snd m). split; [congruence|]. split; [exact Bm|]. exists (snd me). split; [exact N1|exact Bme].
  - rewrite P13. cbn [bind]. do 2 eexists. split; [reflexivity|]. cbn [fst snd]. split; [|split; [congruence|]].
    + constructor; cbn; auto; congruence.
    + exists (snd m). split; [exact N0|]. split; [exact Bm|exact I].
Qed.
Lemma ca_reset_inv n k w exc lo hi lo1 hi1 c : ca_inv n k w exc lo hi lo1 hi1 c -> ca_inv n k w exc lo hi lo1 hi1 (ca_reset c).
Proof.
  intros [P1 P2 P3 P4 P5 P6 P7 P8 P9 P10 P11 P12 P13]. constructor; cbn; auto; [rewrite b_reset_cont; exact P10|]. destruct exc.
  - destruct P13 as (e & E1 & E2 & E3 & E4 & E5). rewrite E1. eexists. split; [reflexivity|]. cbn. rewrite b_reset_cont. auto.
  - rewrite P13. reflexivity.
Qed.
Lemma ca_total n k w exc lo hi lo1 hi1 : lo <= hi -> lo1 <= hi1 -> forall h c, ca_inv n k w exc lo hi lo1 hi1 c -> Forall (sized n k) h ->
  exists x, ca_run c h = Ok x /\ Forall (fun a => length a = w /\ exists v, nth_error a 0 = Some v /\ between lo hi v /\ if exc then exists v1, nth_error a 1 = Some v1 /\ between lo1 hi1 v1 else True) (snd x).
Proof.
  intros LH LH1. induction h as [|[s r|] h IH]; intros c V F; cbn [ca_run].
  - eexists. split; [reflexivity|constructor].
  - pose proof (Forall_inv F) as FA; cbn [sized] in FA; destruct FA as [A B]; pose proof (Forall_inv_tail F) as F'; clear F. destruct (ca_step _ _ _ _ _ _ _ _ _ _ _ LH LH1 V A B) as (c' & a & -> & V' & La & Ba). cbn [bind fst snd]. destruct (IH c' V' F') as (y & -> & Fy). cbn [bind]. eexists. split; [reflexivity|]. constructor; auto.
  - apply Forall_inv_tail in F. apply IH; [apply ca_reset_inv, V|assumption].
Qed.

(** ** Discrete action controller *)
Lemma da_total n k h : forall c, valid_base 4 (da_ctl c) -> da_exc c = None -> (da_ref_state c < n)%nat -> (da_ref c < k)%nat -> Forall (sized n k) h -> exists x, da_run c h = Ok x.
Proof.
  induction h as [|[s r|] h IH]; intros c V N A B F; cbn [da_run].
  - eauto.
  - pose proof (Forall_inv F) as FA; cbn [sized] in FA; destruct FA as [Ls Lr]; pose proof (Forall_inv_tail F) as F'; clear F. unfold da_control. itm s (da_ref_state c) x. itm r (da_ref c) y. pose proof (valid_control 4 (da_ctl c) x y V) as VC. destruct (b_control (da_ctl c) x y) as [b a]. rewrite N. cbn [bind fst snd].
    edestruct IH as (z & ->); [| | | |exact F'|]; cbn; try reflexivity; try eassumption; [apply VC|]. cbn [bind]. eauto.
  - apply Forall_inv_tail in F. unfold da_reset. rewrite N. cbn [bind]. apply IH; auto. cbn. apply valid_reset, V.
Qed.

(** ** Cascades without excitation controller *)
Record cc_inv (n : nat) (box : bool) (lo hi : R) (c : cas) : Prop := {
  cv_rsi : exists rs, cc_rsi c = [cc_ia c; rs] /\ (rs < n)%nat; cv_om : cc_om c = 0%nat; cv_exc : cc_exc c = None;
  cv_stages : exists b0 b1, cc_stages c = [b0; b1] /\ is_cont b1 = true /\ if box then is_cont b0 = true else valid_base 4 b0;
  cv_ref : length (cc_ref c) = 2%nat; cv_idx : cc_ref_idx c = 0%nat; cv_ia : (cc_ia c < n)%nat; cv_ie : (cc_ie c < n)%nat; cv_u : (cc_u c < n)%nat; cv_w : (cc_omega c < n)%nat;
  cv_nom : length (cc_nominal c) = n; cv_lol : length (cc_lolim c) = n; cv_hil : length (cc_hilim c) = n; cv_lo : cc_alow c = lo; cv_hi : cc_ahigh c = hi }.
Lemma cc_ff_ok n c s : (cc_ie c < n)%nat -> (cc_u c < n)%nat -> (cc_omega c < n)%nat -> length (cc_nominal c) = n -> length s = n -> exists f, cc_feedforward c s = Ok f.
Proof.
  intros A B C D L. unfold cc_feedforward. itm s (cc_ie c) x. itm (cc_nominal c) (cc_ie c) y. destruct (req (cc_psi c) 0); cbn [bind]; itm s (cc_omega c) z; itm (cc_nominal c) (cc_omega c) z1; itm (cc_nominal c) (cc_u c) z2; eauto.
Qed.
Lemma valid_not_cont n b : valid_base n b -> is_cont b = false.
Proof. destruct b; cbn; tauto. Qed.
Lemma cc_step n box lo hi c s r : lo <= hi -> cc_inv n box lo hi c -> length s = n -> length r = 1%nat ->
  exists c' v, cc_control c s r = Ok (c', [v]) /\ cc_inv n box lo hi c' /\ if box then between lo hi v else valid_action 4 v.
Proof.
  intros LH [(rs & P1 & P1') P2 P3 (b0 & b1 & P4 & P5 & P6) P7 P8 P9 P10 P11 P12 P13 P14 P15 P16 P17] Ls Lr.
  destruct (cc_ff_ok n c s P10 P11 P12 P13 Ls) as (ff & FF).
  assert (K : exists b1' y0 rv, cc_refs c s r = Ok ([b0; b1'], [y0; rv]) /\ is_cont b1' = true).
  { unfold cc_refs. rewrite P8. itm r 0%nat rv. unfold cc_eidx. rewrite P3. destruct (cc_ref c) as [|q0 [|q1 [|]]]; try discriminate P7. unfold set_back. cbn [length Nat.ltb Nat.leb Nat.sub list_set bind].
    rewrite P4, P2. cbn [length Nat.sub cc_range seq rev app cc_loop]. unfold cc_stage. rewrite P1, P2. cbn [Nat.sub Nat.add fst snd at_ nth_error bind]. itm s (cc_ia c) sa.
    cbn [item nth_error bind]. pose proof (is_cont_control b1 sa rv) as C1. destruct (b_control b1 sa rv) as [b1' y]. cbn [fst] in C1. rewrite P5 in C1. itm (cc_lolim c) (cc_ia c) l0. itm (cc_hilim c) (cc_ia c) h0. rewrite P5, andb_true_r.
    destruct (rle l0 y && rle y h0).
    - itm s rs sw. itm r 0%nat r0. destruct (integrate_cont b1' sw r0 C1) as (b2 & Eb & C2). rewrite Eb. cbn [bind list_set]. do 3 eexists. split; [reflexivity|exact C2].
    - cbn [bind list_set]. do 3 eexists. split; [reflexivity|exact C1]. }
  destruct K as (b1' & y0 & rv & K & C1). unfold cc_control. rewrite K. cbn [bind fst snd at_ nth_error]. rewrite P1. cbn [at_ nth_error bind]. itm s (cc_ia c) sa. cbn [item nth_error bind].
  pose proof (is_cont_control b0 sa y0) as C0. rewrite P3. destruct box.
  - rewrite P6. destruct (b_control b0 sa y0) as [b u]. cbn [fst] in C0. rewrite P6 in C0. rewrite FF. cbn [bind].
    destruct (limited_ok b (cc_alow c) (cc_ahigh c) (u + ff) sa y0 ltac:(rewrite P16, P17; exact LH) C0) as (m & -> & Cm & Bm). cbn [bind list_set]. rewrite P16, P17 in Bm.
    do 2 eexists. split; [reflexivity|]. split; [|exact Bm]. constructor; cbn; auto; [exists rs; auto|]. exists (fst m), b1'. auto.
  - rewrite (valid_not_cont _ _ P6). pose proof (valid_control 4 b0 sa y0 P6) as VC. destruct (b_control b0 sa y0) as [b u]. destruct VC as [V1 V2]. cbn [bind fst snd list_set].
    do 2 eexists. split; [reflexivity|]. split; [|exact V2]. constructor; cbn; auto; [exists rs; auto|]. exists b, b1'. auto.
Qed.
Lemma cc_reset_inv n box lo hi c : cc_inv n box lo hi c -> cc_inv n box lo hi (cc_reset c).
Proof.
  intros [(rs & P1 & P1') P2 P3 (b0 & b1 & P4 & P5 & P6) P7 P8 P9 P10 P11 P12 P13 P14 P15 P16 P17]. constructor; cbn; auto; [exists rs; auto|rewrite P3; reflexivity|].
  rewrite P4. cbn. exists (b_reset b0), (b_reset b1). rewrite !b_reset_cont. split; [reflexivity|]. split; [exact P5|]. destruct box; [exact P6|apply valid_reset, P6].
Qed.
Lemma cc_total n box lo hi : lo <= hi -> forall h c, cc_inv n box lo hi c -> Forall (sized n 1) h ->
  exists x, cc_run c h = Ok x /\ Forall (fun a => exists v, a = [v] /\ if box then between lo hi v else valid_action 4 v) (snd x).
Proof.
  intros LH. induction h as [|[s r|] h IH]; intros c V F; cbn [cc_run].
  - eexists. split; [reflexivity|constructor].
  - pose proof (Forall_inv F) as FA; cbn [sized] in FA; destruct FA as [A B]; pose proof (Forall_inv_tail F) as F'; clear F. destruct (cc_step _ _ _ _ _ _ _ LH V A B) as (c' & v & -> & V' & Bv). cbn [bind fst snd]. destruct (IH c' V' F') as (y & -> & Fy). cbn [bind]. eexists. split; [reflexivity|]. constructor; eauto.
  - apply Forall_inv_tail in F. apply IH; [apply cc_reset_inv, V|assumption].
Qed.

(** ** Cascades with excitation controller *)
Definition good (box : bool) (b : base) : Prop := if box then is_cont b = true else valid_base 4 b.
Record xc_inv (n : nat) (box w : bool) (lo hi lo1 hi1 : R) (c : cas) : Prop := {
  xv_rsi : exists rs, cc_rsi c = (if w then [cc_ia c; cc_torque c; rs; cc_ie c] else [cc_ia c; rs; cc_ie c]) /\ (rs < n)%nat;
  xv_om : cc_om c = if w then 1%nat else 0%nat;
  xv_exc : exists e, cc_exc c = Some e /\ cx_ref e = None /\ cx_low e = lo1 /\ cx_high e = hi1 /\ good box (cx_ctl e);
  xv_stages : exists b0 b1, cc_stages c = [b0; b1] /\ is_cont b1 = true /\ good box b0;
  xv_ref : length (cc_ref c) = if w then 4%nat else 3%nat; xv_idx : cc_ref_idx c = 0%nat; xv_par : cc_ra c <> None /\ cc_re c <> None;
  xv_ia : (cc_ia c < n)%nat; xv_ie : (cc_ie c < n)%nat; xv_u : (cc_u c < n)%nat; xv_w : (cc_omega c < n)%nat; xv_tq : (cc_torque c < n)%nat;
  xv_nom : length (cc_nominal c) = n; xv_lim : length (cc_limit c) = n; xv_sl : length (cc_slow c) = n; xv_sh : length (cc_shigh c) = n;
  xv_lol : length (cc_lolim c) = n; xv_hil : length (cc_hilim c) = n; xv_lo : cc_alow c = lo; xv_hi : cc_ahigh c = hi }.
Lemma good_control box b s r : good box b -> good box (fst (b_control b s r)) /\ if box then True else valid_action 4 (snd (b_control b s r)).
Proof. destruct box; cbn; [rewrite is_cont_control; auto|intros V; pose proof (valid_control 4 b s r V) as W; destruct (b_control b s r); exact W]. Qed.
Lemma good_reset box b : good box b -> good box (b_reset b).
Proof. destruct box; cbn; [rewrite b_reset_cont; auto|apply valid_reset]. Qed.
Lemma good_cont box b : good box b -> is_cont b = box.
Proof. destruct box; cbn; [auto|apply valid_not_cont]. Qed.
Lemma optimal_ok n c ref : cc_ra c <> None -> cc_re c <> None -> (cc_ia c < n)%nat -> (cc_ie c < n)%nat -> (cc_torque c < n)%nat ->
  length (cc_limit c) = n -> length (cc_slow c) = n -> length (cc_shigh c) = n -> (2 <= length ref)%nat ->
  exists ref', cc_optimal c ref = Ok ref' /\ length ref' = length ref.
Proof.
  intros A B C D F G H K L. unfold cc_optimal. destruct (cc_ra c); [|contradiction]. destruct (cc_re c); [|contradiction]. itm ref 1%nat x. itm (cc_limit c) (cc_torque c) x1.
  itm (cc_slow c) (cc_ie c) x2. itm (cc_shigh c) (cc_ie c) x3. itm (cc_limit c) (cc_ie c) x4. itm (cc_slow c) (cc_ia c) x5. itm (cc_shigh c) (cc_ia c) x6. itm (cc_limit c) (cc_ia c) x7.
  unfold set_back. destruct (Nat.ltb_spec 0 (length ref)); [|lia]. cbn [bind]. eexists. split; [reflexivity|]. rewrite !list_set_length. reflexivity.
Qed.
Lemma last_of_ok {A} (l : list A) : (0 < length l)%nat -> exists v, last_of l = Ok v.
Proof. rewrite <- rev_length. unfold last_of. destruct (rev l); cbn [length]; intros H; [lia|eauto]. Qed.
Lemma xc_refs n box w lo hi lo1 hi1 c s r : xc_inv n box w lo hi lo1 hi1 c -> length s = n -> length r = 1%nat ->
  exists b0 b1 ref, cc_refs c s r = Ok ([b0; b1], ref) /\ good box b0 /\ is_cont b1 = true /\ length ref = (if w then 4 else 3)%nat.
Proof.
  intros [(rs & P1 & P1') P2 (e & P3 & P3') (b0 & b1 & P4 & P5 & P6) P7 P8 [P9 P10] P11 P12 P13 P14 P15 P16 P17 P18 P19 P20 P21 P22 P23] Ls Lr.
  unfold cc_refs. rewrite P8. itm r 0%nat rv. unfold cc_eidx. rewrite P3, P4, P2. cbn [length].
  assert (K : exists b1' ref, (do ref0 <- set_back 1 rv (cc_ref c); cc_loop c s r (cc_range 2 1 (if w then 1%nat else 0%nat)) ([b0; b1], ref0)) = Ok ([b0; b1'], ref) /\ is_cont b1' = true /\ length ref = (if w then 4 else 3)%nat).
  { destruct w.
    - destruct (cc_ref c) as [|q0 [|q1 [|q2 [|q3 [|]]]]]; try discriminate P7. unfold set_back. cbn [length Nat.ltb Nat.leb Nat.sub list_set bind cc_range seq rev app cc_loop]. unfold cc_stage.
      rewrite P1, P2. cbn [Nat.sub Nat.add fst snd at_ nth_error bind]. itm s (cc_torque c) sa. cbn [item nth_error bind].
      pose proof (is_cont_control b1 sa rv) as C1. destruct (b_control b1 sa rv) as [b1' y]. cbn [fst] in C1. rewrite P5 in C1. itm (cc_lolim c) (cc_torque c) l0. itm (cc_hilim c) (cc_torque c) h0. rewrite P5, andb_true_r.
      destruct (rle l0 y && rle y h0).
      + itm s rs sw. itm r 0%nat r0. destruct (integrate_cont b1' sw r0 C1) as (b2 & Eb & C2). rewrite Eb. cbn [bind list_set]. do 2 eexists. split; [reflexivity|]. split; [exact C2|reflexivity].
      + cbn [bind list_set]. do 2 eexists. split; [reflexivity|]. split; [exact C1|reflexivity].
    - destruct (cc_ref c) as [|q0 [|q1 [|q2 [|]]]]; try discriminate P7. unfold set_back. cbn [length Nat.ltb Nat.leb Nat.sub list_set bind cc_range seq rev app cc_loop]. do 2 eexists. split; [reflexivity|]. split; [exact P5|reflexivity]. }
  destruct K as (b1' & ref & K & C1 & Lref). destruct (set_back 1 rv (cc_ref c)) as [ref0|x]; [|discriminate K]. cbn [bind] in K |- *. rewrite K. cbn [bind fst snd].
  destruct (optimal_ok n c ref P9 P10 P11 P12 P15 P17 P18 P19) as (ref' & -> & L'); [destruct w; lia|]. cbn [bind]. do 3 eexists. split; [reflexivity|]. repeat split; auto. congruence.
Qed.
Lemma xc_step n box w lo hi lo1 hi1 c s r : lo <= hi -> lo1 <= hi1 -> xc_inv n box w lo hi lo1 hi1 c -> length s = n -> length r = 1%nat ->
  exists c' v v1, cc_control c s r = Ok (c', [v; v1]) /\ xc_inv n box w lo hi lo1 hi1 c' /\
    if box then between lo1 hi1 v /\ between lo1 hi1 v1 else valid_action 4 v /\ valid_action 4 v1.
Proof.
  intros LH LH1 V Ls Lr. destruct (xc_refs _ _ _ _ _ _ _ _ _ _ V Ls Lr) as (b0 & b1 & ref & K & G0 & G1 & Lref).
  destruct V as [(rs & P1 & P1') P2 (e & P3 & P3a & P3b & P3c & P3d) _ P7 P8 P9 P11 P12 P13 P14 P15 P16 P17 P18 P19 P20 P21 P22 P23].
  destruct (cc_ff_ok n c s P12 P13 P14 P16 Ls) as (ff & FF). unfold cc_control. rewrite K. cbn [bind fst snd at_ nth_error].
  assert (A0 : at_ (cc_rsi c) 0 = Ok (cc_ia c)) by (rewrite P1; destruct w; reflexivity). rewrite A0. cbn [bind]. itm s (cc_ia c) sa. itm ref 0%nat y0; [rewrite Lref; destruct w; lia|].
  pose proof (good_control box b0 sa y0 G0) as [C0 C0']. rewrite (good_cont _ _ G0). destruct (b_control b0 sa y0) as [b u]. cbn [fst snd] in C0, C0'.
  assert (M : exists m, (if box then do ff <- cc_feedforward c s; limited b (cc_alow c) (cc_ahigh c) (u + ff) sa y0 else Ok (b, u)) = Ok m /\ good box (fst m) /\ (if box then True else valid_action 4 (snd m))).
  { destruct box.
    - rewrite FF. cbn [bind]. destruct (limited_ok b (cc_alow c) (cc_ahigh c) (u + ff) sa y0 ltac:(rewrite P22, P23; exact LH) C0) as (m & -> & Cm & Bm). exists m. auto.
    - exists (b, u). auto. }
  destruct M as (m & -> & Gm & Vm). cbn [bind list_set]. rewrite P3, P3a. cbn [bind]. itm s (cc_ie c) se. destruct (last_of_ok ref) as (re & ->); [rewrite Lref; destruct w; lia|]. cbn [bind].
  pose proof (good_control box (cx_ctl e) se re P3d) as [C1 C1']. destruct (b_control (cx_ctl e) se re) as [be ye]. cbn [fst snd] in C1, C1'.
  destruct box.
  - assert (B : exists be2, (if rle (cx_low e) ye && rle ye (cx_high e) then b_integrate be se re else Ok be) = Ok be2 /\ is_cont be2 = true).
    { destruct (rle (cx_low e) ye && rle ye (cx_high e)); [apply integrate_cont, C1|eauto]. }
    destruct B as (be2 & -> & C2). cbn [bind]. do 3 eexists. split; [reflexivity|]. rewrite P3b, P3c. split; [|split; apply clip_between, LH1].
    constructor; cbn; auto; [exists rs; auto|eexists; split; [reflexivity|]; cbn; auto|]. exists (fst m), b1. auto.
  - do 3 eexists. split; [reflexivity|]. split; [|split; [exact Vm|exact C1']].
    constructor; cbn; auto; [exists rs; auto|eexists; split; [reflexivity|]; cbn; auto|]. exists (fst m), b1. auto.
Qed.
Lemma xc_reset_inv n box w lo hi lo1 hi1 c : xc_inv n box w lo hi lo1 hi1 c -> xc_inv n box w lo hi lo1 hi1 (cc_reset c).
Proof.
  intros [(rs & P1 & P1') P2 (e & P3 & P3a & P3b & P3c & P3d) (b0 & b1 & P4 & P5 & P6) P7 P8 P9 P11 P12 P13 P14 P15 P16 P17 P18 P19 P20 P21 P22 P23].
  constructor; cbn; auto; [exists rs; auto| |].
  - rewrite P3. eexists. split; [reflexivity|]. cbn. repeat split; auto. apply good_reset, P3d.
  - rewrite P4. exists (b_reset b0), (b_reset b1). split; [reflexivity|]. rewrite b_reset_cont. split; [exact P5|apply good_reset, P6].
Qed.
Lemma xc_total n box w lo hi lo1 hi1 : lo <= hi -> lo1 <= hi1 -> forall h c, xc_inv n box w lo hi lo1 hi1 c -> Forall (sized n 1) h ->
  exists x, cc_run c h = Ok x /\ Forall (fun a => exists v v1, a = [v; v1] /\ if box then between lo1 hi1 v /\ between lo1 hi1 v1 else valid_action 4 v /\ valid_action 4 v1) (snd x).
Proof.
  intros LH LH1. induction h as [|[s r|] h IH]; intros c V F; cbn [cc_run].
  - eexists. split; [reflexivity|constructor].
  - pose proof (Forall_inv F) as FA; cbn [sized] in FA; destruct FA as [A B]; pose proof (Forall_inv_tail F) as F'. destruct (xc_step _ _ _ _ _ _ _ _ _ _ LH LH1 V A B) as (c' & v & v1 & -> & V' & Bv). cbn [bind fst snd]. destruct (IH c' V' F') as (y & -> & Fy). cbn [bind]. eexists. split; [reflexivity|]. constructor; eauto.
  - apply Forall_inv_tail in F. apply IH; [apply xc_reset_inv, V|assumption].
Qed.
