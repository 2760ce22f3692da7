(** Proofs about the physical systems. *)
From Verif Require Import PyBaseFacts PyDictFacts Conv_Model Conv_Spec Solver_Model Solver_Spec Transform_Model Transform_Proofs Motor_Model PhysSys_Model PhysSys_Spec.

Section Core.
Context {C S A U V : Type}.
Context (cv : conv_if C A) (sp : supply_if S) (f : rhs U) (tau : R).
Context (view : list R -> res V) (cur : V -> list R) (volt volt_last : V -> list R -> res U).
Notation sys := (sys C S U).

Lemma integrate_inv (s : euler U) t e' y' : integrate f s t = (e', Ok y') ->
  exists p y, eu_p s = Some p /\ eu_y s = Some y /\ e' = {| eu_n := eu_n s; eu_t := t; eu_y := Some y'; eu_p := Some p |}.
Proof.
  unfold integrate. destruct (eu_p s) as [p|]; [|discriminate]. destruct (eu_y s) as [y|]; [|discriminate].
  match goal with |- context [match ?r with Ok _ => _ | Err _ => _ end] => destruct r end; intros E; [|discriminate].
  injection E as <- <-. exists p, y. auto.
Qed.

(** One successful interval. *)
Lemma sub_interval_inv vv i (x x' : sys) t iv : sub_interval cv sp f vv i x t = (x', Ok iv) ->
  exists u us y0 isup c' s', cv_convert cv (sy_c x) i (eu_t (sy_e x)) = (c', Ok u) /\
    cv_i_sup cv (sy_c x) i = Ok isup /\ sp_get sp (sy_s x) (sy_t x) isup = (s', Ok us) /\
    iv_u iv = scale_voltages u us /\ iv_sup iv = us /\ vv (scale_voltages u us) = Ok (iv_par iv) /\
    eu_y (sy_e x) = Some y0 /\
    snd (integrate f {| eu_n := eu_n (sy_e x); eu_t := eu_t (sy_e x); eu_y := Some y0; eu_p := Some (iv_par iv) |} t) = Ok (iv_y iv) /\
    x' = {| sy_c := c'; sy_s := s';
            sy_e := {| eu_n := eu_n (sy_e x); eu_t := t; eu_y := Some (iv_y iv); eu_p := Some (iv_par iv) |};
            sy_t := sy_t x; sy_k := sy_k x; sy_state := sy_state x |}.
Proof.
  unfold sub_interval. destruct (cv_i_sup cv (sy_c x) i) as [isup|] eqn:Ei; [|discriminate].
  destruct (sp_get sp (sy_s x) (sy_t x) isup) as [s' [us|]] eqn:Es; [|discriminate].
  cbn [with_s sy_c sy_e].
  destruct (cv_convert cv (sy_c x) i (eu_t (sy_e x))) as [c' [u|]] eqn:Ec; [|discriminate].
  destruct (vv (scale_voltages u us)) as [p|] eqn:Ev; [|discriminate].
  change (sy_e (with_c c' (with_s s' x))) with (sy_e x).
  destruct (integrate f (set_f_params p (sy_e x)) t) as [e' [y|]] eqn:Eint; cbn [bind]; [|discriminate].
  intros E. injection E as <- <-.
  destruct (integrate_inv _ _ _ _ Eint) as (p' & y0 & Hp & Hy & ->).
  cbn [set_f_params eu_p eu_y eu_n] in Hp, Hy, Eint |- *. injection Hp as <-.
  exists u, us, y0, isup, c', s'. cbn [iv_u iv_sup iv_par iv_y fst snd]. split; [reflexivity|]. split; [reflexivity|]. split; [exact Es|].
  split; [reflexivity|]. split; [reflexivity|]. split; [exact Ev|]. split; [exact Hy|]. split.
  - replace (set_f_params p (sy_e x)) with ({| eu_n := eu_n (sy_e x); eu_t := eu_t (sy_e x); eu_y := Some y0; eu_p := Some p |}) in Eint.
    + now rewrite Eint.
    + unfold set_f_params. now rewrite Hy.
  - reflexivity.
Qed.

(** A predicate on the converter state that calls keep. *)
Definition conv_kept (P : C -> Prop) : Prop :=
  (forall c a t, P c -> P (fst (cv_set_action cv c a t))) /\ (forall c i t, P c -> P (fst (cv_convert cv c i t))) /\
  (forall c, P c -> P (fst (cv_reset cv c))).

Lemma intervals_inv ts : forall v (x x' : sys) v' y0,
  intervals cv sp f view cur volt v x ts = (x', Ok v') -> eu_y (sy_e x) = Some y0 -> view y0 = Ok v ->
  exists segs y1, eu_y (sy_e x') = Some y1 /\ view y1 = Ok v' /\
    tiles (eu_t (sy_e x)) y0 (sy_c x) (sy_s x) segs (eu_t (sy_e x')) y1 (sy_c x') (sy_s x') /\ map sg_to segs = ts /\
    Forall (segment_ok cv sp f (eu_n (sy_e x)) (sy_t x) view cur volt) segs /\
    eu_n (sy_e x') = eu_n (sy_e x) /\ sy_t x' = sy_t x /\ sy_k x' = sy_k x /\ sy_state x' = sy_state x /\
    eu_t (sy_e x') = last ts (eu_t (sy_e x)) /\
    (forall P, conv_kept P -> P (sy_c x) -> P (sy_c x')).
Proof.
  induction ts as [|t ts IH]; intros v x x' v' y0 H Hy Hv; cbn [intervals] in H.
  - injection H as <- <-. exists [], y0. cbn. do 10 (split; [now auto|]). auto.
  - destruct (sub_interval cv sp f (volt v) (cur v) x t) as [x1 [iv|]] eqn:E; [|discriminate].
    destruct (view (iv_y iv)) as [v1|] eqn:Ev; [|discriminate].
    destruct (sub_interval_inv _ _ _ _ _ _ E) as (u & us & y & isup & c' & s' & Hu & Hs & Hs' & Hiu & Hisup & Hp & Hy' & Hint & ->).
    rewrite Hy in Hy'. injection Hy' as <-.
    match type of H with intervals _ _ _ _ _ _ _ ?xx _ = _ => set (x1 := xx) in * end.
    destruct (IH v1 x1 x' v' (iv_y iv) H eq_refl Ev) as (segs & y1 & H1 & H2 & H3 & H4 & H5 & H6 & H7 & H8 & H9 & H10 & H11).
    exists ({| sg_from := eu_t (sy_e x); sg_to := t; sg_y0 := y0; sg_y1 := iv_y iv; sg_c0 := sy_c x; sg_c1 := c'; sg_s0 := sy_s x; sg_s1 := s';
               sg_conv := u; sg_sup := us; sg_par := iv_par iv |} :: segs), y1.
    split; [exact H1|]. split; [exact H2|]. split; [cbn [tiles sg_from sg_y0 sg_to sg_y1 sg_c0 sg_c1 sg_s0 sg_s1]; now auto 6|].
    split; [cbn [map sg_to]; now rewrite H4|]. split.
    { constructor; [|exact H5]. exists v, isup. cbn [sg_y0 sg_from sg_conv sg_sup sg_par sg_to sg_y1 sg_c0 sg_c1 sg_s0 sg_s1]. now auto 7. }
    split; [exact H6|]. split; [exact H7|]. split; [exact H8|]. split; [exact H9|]. split.
    { rewrite H10. cbn [x1 sy_e eu_t]. destruct ts as [|t' ts]; [reflexivity|]. change (last (t :: t' :: ts) (eu_t (sy_e x))) with (last (t' :: ts) (eu_t (sy_e x))).
      clear. revert t'. induction ts as [|a ts IH]; intros t'; [reflexivity|]. cbn [last]. apply IH. }
    intros P HP Hc. apply H11; [exact HP|]. cbn [x1 sy_c].
    replace c' with (fst (cv_convert cv (sy_c x) (cur v) (eu_t (sy_e x)))) by now rewrite Hu. apply HP, Hc.
Qed.

Context (act : V -> A -> res A) (out : V -> interval U -> list R -> res (list R)) (limits : list lim).
Notation simulate := (simulate cv sp f tau view cur volt volt_last act out limits).

(** Everything a successful step does. *)
Lemma simulate_inv a (x x' : sys) o : simulate a x = (x', Ok o) ->
  exists y0 v0 a' c' ts vl iv y1 y2 segs sl st,
    eu_y (sy_e x) = Some y0 /\ view y0 = Ok v0 /\ act v0 a = Ok a' /\
    cv_set_action cv (sy_c x) a' (sy_t x) = (c', Ok ts) /\
    tiles (eu_t (sy_e x)) y0 c' (sy_s x) segs (sg_from sl) y1 (sg_c0 sl) (sg_s0 sl) /\ map sg_to segs = removelast ts /\
    Forall (segment_ok cv sp f (eu_n (sy_e x)) (sy_t x) view cur volt) segs /\
    sg_y0 sl = y1 /\ sg_y1 sl = y2 /\ sg_to sl = sy_t x + tau /\ segment_ok cv sp f (eu_n (sy_e x)) (sy_t x) view cur volt_last sl /\
    view y1 = Ok vl /\
    iv = {| iv_u := scale_voltages (sg_conv sl) (sg_sup sl); iv_sup := sg_sup sl; iv_par := sg_par sl; iv_y := y2 |} /\
    out vl iv (sy_state x) = Ok st /\ np_div st limits = Ok o /\
    eu_y (sy_e x') = Some y2 /\ eu_t (sy_e x') = sy_t x + tau /\ eu_n (sy_e x') = eu_n (sy_e x) /\
    sy_t x' = sy_t x + tau /\ sy_k x' = Datatypes.S (sy_k x) /\ sy_state x' = st /\
    sy_c x' = sg_c1 sl /\ sy_s x' = sg_s1 sl /\
    sg_from sl = last (removelast ts) (eu_t (sy_e x)) /\
    (forall P, conv_kept P -> P (sy_c x) -> P (sy_c x')).
Proof.
  unfold PhysSys_Model.simulate. destruct (eu_y (sy_e x)) as [y0|] eqn:Ey; [|discriminate].
  destruct (view y0) as [v0|] eqn:Ev; cbn [bind]; [|discriminate].
  destruct (act v0 a) as [a'|] eqn:Ea; cbn [bind]; [|discriminate].
  destruct (cv_set_action cv (sy_c x) a' (sy_t x)) as [c' [ts|]] eqn:Et; [|discriminate].
  set (x1 := with_c c' x).
  destruct (intervals cv sp f view cur volt v0 x1 (removelast ts)) as [x2 [vl|]] eqn:Ei; [|discriminate].
  destruct (intervals_inv _ _ _ _ _ _ Ei Ey Ev) as (segs & y1 & H1 & H2 & H3 & H4 & H5 & H6 & H7 & H8 & H9 & H10 & H11).
  destruct (sub_interval cv sp f (volt_last vl) (cur vl) x2 (sy_t x2 + tau)) as [x3 [iv|]] eqn:Es; [|discriminate].
  destruct (sub_interval_inv _ _ _ _ _ _ Es) as (u & us & y & isup & c1 & s1 & Hu & Hs & Hs' & Hiu & Hisup & Hp & Hy & Hint & ->).
  rewrite H1 in Hy. injection Hy as <-. cbn [sy_c sy_s sy_e sy_t sy_k sy_state eu_t].
  destruct (out vl iv (sy_state x2)) as [st|] eqn:Eo; [|discriminate]. intros E. injection E as <- Eo'.
  cbn [sy_c sy_s sy_e sy_t sy_k sy_state eu_t eu_y eu_n] in *.
  change (sy_t x1) with (sy_t x) in *. change (sy_k x1) with (sy_k x) in *. change (sy_e x1) with (sy_e x) in *. change (sy_state x1) with (sy_state x) in *.
  change (sy_c x1) with c' in *. change (sy_s x1) with (sy_s x) in *.
  exists y0, v0, a', c', ts, vl, iv, y1, (iv_y iv), segs,
    {| sg_from := eu_t (sy_e x2); sg_to := sy_t x2 + tau; sg_y0 := y1; sg_y1 := iv_y iv; sg_c0 := sy_c x2; sg_c1 := c1; sg_s0 := sy_s x2; sg_s1 := s1;
       sg_conv := u; sg_sup := us; sg_par := iv_par iv |}, st.
  cbn [sg_from sg_to sg_y0 sg_y1 sg_conv sg_sup sg_par sg_c0 sg_c1 sg_s0 sg_s1 snd].
  split; [reflexivity|]. split; [exact Ev|]. split; [exact Ea|]. split; [exact Et|]. split; [exact H3|]. split; [exact H4|]. split; [exact H5|].
  split; [reflexivity|]. split; [reflexivity|]. split; [now rewrite H7|]. split.
  { exists vl, isup. cbn [sg_from sg_to sg_y0 sg_y1 sg_conv sg_sup sg_par sg_c0 sg_c1 sg_s0 sg_s1]. rewrite H6 in Hint. rewrite H7 in Hs', Hint |- *. auto 7. }
  split; [exact H2|]. split; [destruct iv; cbn in *; congruence|]. rewrite H9 in Eo.
  split; [exact Eo|]. split; [exact Eo'|]. split; [reflexivity|]. rewrite H7, H8.
  split; [reflexivity|]. split; [exact H6|]. split; [reflexivity|]. split; [reflexivity|]. split; [reflexivity|]. split; [reflexivity|]. split; [reflexivity|]. split; [exact H10|].
  intros P HP Hc. replace c1 with (fst (cv_convert cv (sy_c x2) (cur vl) (eu_t (sy_e x2)))) by now rewrite Hu. apply HP. apply H11; [exact HP|].
  replace c' with (fst (cv_set_action cv (sy_c x) a' (sy_t x))) by now rewrite Et. apply HP, Hc.
Qed.

Context (obs : list R -> list R -> list R -> list R -> res (list R)).
Notation reset := (reset cv sp limits obs).
Lemma reset_inv init (x x' : sys) o : reset init x = (x', Ok o) ->
  exists mech ms u us st, init = Ok (mech, ms) /\ snd (cv_reset cv (sy_c x)) = Ok u /\ snd (sp_reset sp (sy_s x)) = Ok us /\
    obs mech ms (scale_voltages u us) us = Ok st /\ np_div st limits = Ok o /\
    eu_y (sy_e x') = Some (mech ++ ms) /\ eu_t (sy_e x') = 0 /\ sy_t x' = 0 /\ sy_k x' = 0%nat /\ eu_n (sy_e x') = eu_n (sy_e x) /\
    sy_state x' = sy_state x /\
    (forall P, conv_kept P -> P (sy_c x) -> P (sy_c x')).
Proof.
  unfold PhysSys_Model.reset. destruct init as [[mech ms]|]; [|discriminate].
  destruct (sp_reset sp (sy_s x)) as [s' [us|]]; [|discriminate]. cbn [with_s sy_c].
  destruct (cv_reset cv (sy_c x)) as [c' [u|]] eqn:Ec; cbn [bind]; [|discriminate].
  destruct (obs mech ms (scale_voltages u us) us) as [st|] eqn:Eo; [|discriminate]. intros E. injection E as <- E.
  exists mech, ms, u, us, st. cbn. do 11 (split; [first [reflexivity|exact Eo|exact E]|]).
  intros P HP Hc. replace c' with (fst (cv_reset cv (sy_c x))) by now rewrite Ec. apply HP, Hc.
Qed.

(** Time and counters over histories. *)
Lemma run_time ops : forall (x x' : sys) n, sy_t x = INR n * tau -> eu_t (sy_e x) = sy_t x -> sy_k x = n ->
  run_ok reset simulate ops x = Some x' ->
  sy_k x' = steps_since ops n /\ sy_t x' = INR (steps_since ops n) * tau /\ eu_t (sy_e x') = sy_t x' /\ eu_n (sy_e x') = eu_n (sy_e x) /\
  (forall P, conv_kept P -> P (sy_c x) -> P (sy_c x')).
Proof.
  induction ops as [|o ops IH]; intros x x' n Ht He Hk H; cbn [run_ok steps_since] in *.
  - injection H as <-. auto.
  - destruct o as [i|a].
    + destruct (reset i x) as [x1 [o|]] eqn:E; [|discriminate].
      destruct (reset_inv _ _ _ _ E) as (? & ? & ? & ? & ? & _ & _ & _ & _ & _ & _ & H1 & H2 & H3 & H4 & _ & H5).
      destruct (IH x1 x' 0%nat) as (G1 & G2 & G3 & G4 & G5); [rewrite H2; cbn; lra|now rewrite H1, H2|exact H3|exact H|].
      split; [exact G1|]. split; [exact G2|]. split; [exact G3|]. split; [now rewrite G4|]. intros P HP Hc. exact (G5 P HP (H5 P HP Hc)).
    + destruct (simulate a x) as [x1 [o|]] eqn:E; [|discriminate].
      destruct (simulate_inv _ _ _ _ E) as (? & ? & ? & ? & ? & ? & ? & ? & ? & ? & ? & ? & _ & _ & _ & _ & _ & _ & _ & _ & _ & _ & _ & _ & _ & _ & _ & _ & H1 & H2 & H3 & H4 & _ & _ & _ & _ & H5).
      destruct (IH x1 x' (Datatypes.S n)) as (G1 & G2 & G3 & G4 & G5); [rewrite H3, Ht, S_INR; ring|now rewrite H1, H3|now rewrite H4, Hk|exact H|].
      split; [exact G1|]. split; [exact G2|]. split; [exact G3|]. split; [now rewrite G4|]. intros P HP Hc. exact (G5 P HP (H5 P HP Hc)).
Qed.
End Core.

Lemma tiles_app {C S U} (l : list (segment C S U)) : forall t0 y0 c0 s0 s t1 y1 c1 s1,
  tiles t0 y0 c0 s0 l (sg_from s) (sg_y0 s) (sg_c0 s) (sg_s0 s) -> sg_to s = t1 -> sg_y1 s = y1 -> sg_c1 s = c1 -> sg_s1 s = s1 ->
  tiles t0 y0 c0 s0 (l ++ [s]) t1 y1 c1 s1.
Proof.
  induction l as [|a l IH]; intros t0 y0 c0 s0 s t1 y1 c1 s1 H H1 H2 H3 H4; cbn [app tiles] in *.
  - destruct H as (-> & -> & -> & ->). auto 9.
  - destruct H as (Ha & Hb & Hc & Hd & H). split; [exact Ha|]. split; [exact Hb|]. split; [exact Hc|]. split; [exact Hd|]. now apply IH.
Qed.

Lemma sorted_tiles {C S U} (l : list (segment C S U)) : forall t0 y0 c0 s0 t1 y1 c1 s1, tiles t0 y0 c0 s0 l t1 y1 c1 s1 ->
  StronglySorted Rlt (map sg_to l) -> Forall (fun x => t0 < x) (map sg_to l) -> Forall (fun s => sg_from s < sg_to s) l.
Proof.
  induction l as [|s l IH]; intros t0 y0 c0 s0 t1 y1 c1 s1 H Hs Hf; [constructor|]. cbn [tiles map] in *.
  destruct H as (H1 & _ & _ & _ & H). apply StronglySorted_inv in Hs. destruct Hs as [Hs Hs']. inversion Hf; subst. constructor; [assumption|].
  eapply IH; eauto.
Qed.

(** ** Angles *)
Lemma py_mod_range x m : 0 < m -> 0 <= py_mod x m < m.
Proof.
  intros Hm. unfold py_mod. destruct (base_Int_part (x / m)) as [H1 H2].
  assert (E : x = m * (x / m)) by (field; lra).
  split; [apply (Rmult_le_compat_l m) in H1; lra|].
  assert (x / m < IZR (Int_part (x / m)) + 1) by lra.
  apply (Rmult_lt_compat_l m) in H; lra.
Qed.
Lemma wrap_angle_spec e : - PI < wrap_angle e <= PI /\ same_angle (wrap_angle e) e.
Proof.
  pose proof PI_RGT_0 as Hpi. pose proof (py_mod_range e (2 * PI) ltac:(lra)) as H. unfold wrap_angle, wrap.
  destruct (rltP PI (py_mod e (2 * PI))).
  - split; [lra|]. exists (- Int_part (e / (2 * PI)) - 1)%Z. unfold py_mod. rewrite minus_IZR, opp_IZR. ring.
  - split; [lra|]. exists (- Int_part (e / (2 * PI)))%Z. unfold py_mod. rewrite opp_IZR. ring.
Qed.
Lemma same_angle_trig a b : same_angle a b -> cos a = cos b /\ sin a = sin b.
Proof.
  intros [k ->].
  assert (H : forall n : nat, cos (b + 2 * PI * INR n) = cos b /\ sin (b + 2 * PI * INR n) = sin b).
  { intros n. replace (b + 2 * PI * INR n) with (b + 2 * INR n * PI) by ring. split; [apply cos_period|apply sin_period]. }
  assert (H' : forall n : nat, cos (b - 2 * PI * INR n) = cos b /\ sin (b - 2 * PI * INR n) = sin b).
  { intros n. split; [rewrite <- (cos_period (b - 2 * PI * INR n) n)|rewrite <- (sin_period (b - 2 * PI * INR n) n)]; f_equal; ring. }
  destruct (Z_le_gt_dec 0 k) as [Hk|Hk].
  - destruct (Z_of_nat_complete k Hk) as [n ->]. rewrite <- INR_IZR_INZ. apply H.
  - destruct (Z_of_nat_complete (- k)%Z ltac:(lia)) as [n En]. assert (k = (- Z.of_nat n)%Z) as -> by lia.
    rewrite opp_IZR, <- INR_IZR_INZ. replace (b + 2 * PI * - INR n) with (b - 2 * PI * INR n) by ring. apply H'.
Qed.
Lemma cos_sin_same a b : cos a = cos b -> sin a = sin b -> same_angle a b.
Proof.
  intros Hc Hs.
  assert (H : cos (a - b) = 1) by (rewrite cos_minus, Hc, Hs; pose proof (sincos b); lra).
  assert (H' : sin ((a - b) / 2) = 0).
  { assert (E : cos (a - b) = 1 - 2 * sin ((a - b) / 2) * sin ((a - b) / 2)).
    { rewrite <- cos_2a_sin. f_equal. field. }
    assert (sin ((a - b) / 2) * sin ((a - b) / 2) = 0) by lra. destruct (Rmult_integral _ _ H0); assumption. }
  destruct (sin_eq_0_0 _ H') as [k Hk]. exists k. lra.
Qed.

(** arctan2 gives the direction of a vector. *)
Lemma arctan2_spec y x : let r := sqrt (x * x + y * y) in
  - PI <= np_arctan2 y x <= PI /\ x = r * cos (np_arctan2 y x) /\ y = r * sin (np_arctan2 y x).
Proof.
  intros r. pose proof PI_RGT_0 as Hpi.
  assert (Hatan : forall z, cos (atan z) = / sqrt (1 + z * z) /\ sin (atan z) = z / sqrt (1 + z * z)).
  { intros z. rewrite cos_atan, sin_atan. unfold Rsqr, Rdiv. split; ring. }
  assert (Hr : forall s, (s = 1 \/ s = -1) -> 0 < s * x -> s * x * sqrt (1 + y / x * (y / x)) = r).
  { intros s Hs Hx. unfold r. rewrite <- (sqrt_square (s * x)) at 1 by lra. rewrite <- sqrt_mult_alt by nra. f_equal.
    destruct Hs as [-> | ->]; field; nra. }
  assert (Hpos : 0 < sqrt (1 + y / x * (y / x))) by (apply sqrt_lt_R0; pose proof (Rle_0_sqr (y / x)) as H0; unfold Rsqr in H0; lra).
  unfold np_arctan2. destruct (rltP 0 x) as [Hx|Hx].
  - destruct (Hatan (y / x)) as [Ec Es]. rewrite Ec, Es. pose proof (atan_bound (y / x)) as Hb.
    rewrite <- (Hr 1 (or_introl eq_refl) ltac:(lra)). split; [lra|]. split; field; repeat (try split); lra.
  - destruct (rltP x 0) as [Hx'|Hx'].
    + destruct (Hatan (y / x)) as [Ec Es]. pose proof (atan_bound (y / x)) as Hb.
      assert (Hrr : r = - x * sqrt (1 + y / x * (y / x))) by (rewrite <- (Hr (-1) (or_intror eq_refl) ltac:(lra)); ring).
      destruct (rleP 0 y) as [Hy|Hy].
      * rewrite neg_cos, neg_sin, Ec, Es, Hrr.
        assert (atan (y / x) <= 0).
        { destruct (Req_dec (y / x) 0) as [-> | Hne]; [rewrite atan_0; lra|].
          assert (y / x < 0). { unfold Rdiv in *. assert (/ x < 0) by now apply Rinv_lt_0_compat. assert (y * / x <= 0) by nra. lra. }
          pose proof (atan_increasing _ _ H). rewrite atan_0 in H0. lra. }
        split; [lra|]. split; field; repeat (try split); lra.
      * replace (atan (y / x) - PI) with (- (PI - atan (y / x))) by ring.
        rewrite cos_neg, sin_neg. rewrite Rtrigo_facts.cos_pi_minus, Rtrigo_facts.sin_pi_minus, Ec, Es, Hrr.
        assert (0 < atan (y / x)).
        { assert (0 < y / x). { unfold Rdiv. assert (/ x < 0) by now apply Rinv_lt_0_compat. nra. }
          pose proof (atan_increasing _ _ H). rewrite atan_0 in H0. lra. }
        split; [lra|]. split; field; repeat (try split); lra.
    + assert (x = 0) by lra. subst x. assert (Er : r = Rabs y).
      { unfold r. replace (0 * 0 + y * y) with (Rsqr y) by (unfold Rsqr; ring). apply sqrt_Rsqr_abs. }
      rewrite Er. destruct (rltP 0 y).
      * rewrite cos_PI2, sin_PI2, Rabs_right by lra. lra.
      * destruct (rltP y 0).
        -- rewrite cos_neg, sin_neg, cos_PI2, sin_PI2, Rabs_left by lra. lra.
        -- assert (y = 0) by lra. subst y. rewrite Rabs_R0. lra.
Qed.
