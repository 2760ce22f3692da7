(** More theorems about the physical systems: the system equation and its jacobian,
    limits, supplies, induction machines. *)
From Verif Require Import PyBaseFacts PyDictFacts Conv_Model Conv_Spec Conv_Proofs Conv_Proofs2 Conv_Props Solver_Model Solver_Spec Solver_Proofs Supply_Model
  Transform_Model Transform_Proofs Transform_Props Motor_Model Motor_Spec Motor_Proofs Motor_Props Loads_Model Loads_Props
  PhysSys_Model PhysSys_Spec PhysSys_Proofs PhysSys_Proofs2 PhysSys_Proofs3 PhysSys_Props PhysSys_Props2.

(** ** C91 Reusing the result array of the system equation is invisible *)
(** Results of a list of evaluations, one after the other. *)
Fixpoint evaluations {U} (ml : mload) (mo : motor U) (cache : option (list R * nat)) (calls : list (U * R * list R)) : list (res (list R)) :=
  match calls with
  | [] => []
  | (u, t, y) :: calls' =>
      let (cache', r) := system_equation_ph ml mo cache u t y in r :: evaluations ml mo cache' calls'
  end.
Theorem result_array_reuse_invisible :
  forall U (PP : U -> Prop) m ml mo calls, load_total ml -> motor_total PP m mo ->
  Forall (fun c => let '(u, t, y) := c in PP u /\ length y = (ml_n ml + mo_n mo)%nat) calls ->
  evaluations ml mo None calls = map (fun c => let '(u, t, y) := c in system_equation ml mo u t y) calls.
Proof.
  intros U PP m ml mo calls Hl Hm Hc. assert (G : forall cache, cache_ok (ml_n ml) (mo_n mo) cache -> evaluations ml mo cache calls = map (fun c => let '(u, t, y) := c in system_equation ml mo u t y) calls).
  { induction Hc as [|[[u t] y] calls [Hu Hy] Hc IH]; intros cache Hk; cbn [evaluations map]; [reflexivity|].
    destruct (placeholder_step PP m ml mo cache Hl Hm Hk u t y Hu Hy) as [H1 H2]. destruct (system_equation_ph ml mo cache u t y) as [c' r]. cbn [fst snd] in *. now rewrite H1, (IH c' H2). }
  now apply G.
Qed.
Print Assumptions result_array_reuse_invisible.
Example result_array_example p m : evaluations (poly_load p) (pmsm_motor m) None [([1; 2], 0, [3; 4; 5; 6]); ([7; 8], 1, [9; 10; 11; 12])] =
  [system_equation (poly_load p) (pmsm_motor m) [1; 2] 0 [3; 4; 5; 6]; system_equation (poly_load p) (pmsm_motor m) [7; 8] 1 [9; 10; 11; 12]].
Proof.
  exact (result_array_reuse_invisible _ (fun u : list R => length u = 2%nat) 2 (poly_load p) (pmsm_motor m) [([1; 2], 0, [3; 4; 5; 6]); ([7; 8], 1, [9; 10; 11; 12])]
    (poly_load_total p) (pmsm_motor_total m) ltac:(repeat constructor)).
Qed.

(** ** C92 The jacobian given to the solver is the jacobian of the system equation *)
Theorem system_jacobian_is_derivative :
  forall U (adm : U -> Prop) ml (mo : motor U) mjac ljac g a b t w ms u T,
  ml_n ml = 1%nat -> ml_omega ml = 0%nat ->
  is_jacobian (mo_n mo) adm (mo_ode mo) (mo_torque mo) mjac ->
  (forall w' T', ml_ode ml t [w'] T' = Ok [g w' T']) ->
  length ms = mo_n mo -> adm u -> mo_torque mo ms = Ok T ->
  ljac t [w] T = Ok ([[a]], [b]) -> derivable_pt_lim (fun w' => g w' T) w a -> derivable_pt_lim (fun T' => g w T') T b ->
  exists J, system_jacobian ml mo mjac ljac u t (w :: ms) = Ok J /\ length J = S (mo_n mo) /\
    (forall i, (i <= mo_n mo)%nat -> length (nth i J []) = S (mo_n mo)) /\
    forall i j, (i <= mo_n mo)%nat -> (j <= mo_n mo)%nat ->
      derivable_pt_lim (fun s => comp (system_equation ml mo u t (list_set j s (w :: ms))) i) (nth j (w :: ms) 0) (nth j (nth i J []) 0).
Proof.
  intros U adm ml mo mjac ljac g a b t w ms u T Hn Hom Hjac Hg Hms Hu HT Hlj Da Db. set (n := mo_n mo) in *.
  destruct (Hjac ms u w Hms Hu) as (fd & T0 & J & Jw & Jt & E1 & L1 & E2 & E3 & L2 & L3 & L4 & L5 & D1 & D2 & D3). rewrite HT in E2. injection E2 as <-.
  exists ((a :: map (fun z => b * z) Jt) :: map2 (fun row z => z :: row) J Jw).
  assert (HL3 : forallb (fun r : list R => Nat.eqb (length r) n) J = true).
  { apply forallb_forall. intros r Hr. destruct (In_nth J r [] Hr) as (k & Hk & <-). apply Nat.eqb_eq. apply L3. lia. }
  assert (Hsys : forall w' ms' , length ms' = n -> system_equation ml mo u t (w' :: ms') = (do md <- mo_ode mo ms' u w'; do tq <- mo_torque mo ms'; do ld <- ml_ode ml t [w'] tq; Ok (ld ++ md))).
  { intros w' ms' H'. apply system_equation_1; assumption. }
  assert (Hmap2 : forall k, (k < n)%nat -> nth k (map2 (fun row z => z :: row) J Jw) [] = nth k Jw 0 :: nth k J []).
  { intros k Hk. apply nth_error_nth. rewrite map2_nth_error.
    rewrite (nth_error_nth' J (n := k) []) by lia. rewrite (nth_error_nth' Jw (n := k) 0) by lia. reflexivity. }
  split; [|split; [|split]].
  - unfold system_jacobian, motor_idx, load_idx. rewrite Hn, Hom. fold n. rewrite <- Hms at 1. rewrite select_tail. cbn [bind item nth_error]. rewrite E3. cbn [bind]. rewrite HT. cbn [bind select seq nth_error].
    rewrite Hlj. cbn [bind length forallb andb]. rewrite L2, L4, L5, Hms, HL3, !Nat.eqb_refl. cbn [Nat.add andb Nat.eqb]. cbn [andb map2 block_row app repeat list_set]. reflexivity.
  - cbn [length]. rewrite map2_length. lia.
  - intros [|i] Hi; cbn [nth]; [cbn [length]; rewrite map_length; lia|]. rewrite Hmap2 by lia. cbn [length]. rewrite L3 by lia. reflexivity.
  - assert (Lset : forall j s, length (list_set j s ms) = n) by (intros; now rewrite list_set_length).
    assert (Hval : forall ms', length ms' = n -> exists md tq, (forall w', exists md', mo_ode mo ms' u w' = Ok md') /\ mo_ode mo ms' u w = Ok md /\ mo_torque mo ms' = Ok tq).
    { intros ms' H'. destruct (Hjac ms' u w H' Hu) as (f1 & t1 & ? & ? & ? & F1 & _ & F2 & _). exists f1, t1. split; [|auto].
      intros w'. destruct (Hjac ms' u w' H' Hu) as (f2 & ? & ? & ? & ? & F3 & _). eauto. }
    intros [|i] [|j] Hi Hj; cbn [nth list_set].
    + (* speed equation by speed *)
      apply (derivable_pt_lim_ext (fun w' => g w' T)); [|exact Da]. intros s. rewrite Hsys by exact Hms. destruct (Hval ms Hms) as (md & tq & Hw & _ & _). destruct (Hw s) as (md' & ->). cbn [bind]. rewrite HT. cbn [bind]. rewrite Hg. reflexivity.
    + (* speed equation by a motor state: chain rule *)
      replace (nth j (map (fun z => b * z) Jt) 0) with (b * nth j Jt 0) by (symmetry; rewrite nth_indep with (d' := b * 0) by (rewrite map_length; lia); apply (map_nth (fun z => b * z))).
      apply (derivable_pt_lim_ext (fun s => g w (val (mo_torque mo (list_set j s ms))))).
      { intros s. rewrite Hsys by apply Lset. destruct (Hval _ (Lset j s)) as (md & tq & _ & -> & ->). cbn [bind]. rewrite Hg. reflexivity. }
      apply (derivable_pt_lim_comp (fun s => val (mo_torque mo (list_set j s ms))) (fun T' => g w T')); [apply D3; lia|].
      assert (Hid : list_set j (nth j ms 0) ms = ms).
      { clear. revert j. induction ms as [|z l IH]; intros [|j]; cbn; try reflexivity. now rewrite IH. }
      rewrite Hid, HT. exact Db.
    + (* motor equation by speed *)
      rewrite Hmap2 by lia. cbn [nth]. apply (derivable_pt_lim_ext (fun s => comp (mo_ode mo ms u s) i)); [|apply D2; lia].
      intros s. rewrite Hsys by exact Hms. destruct (Hval ms Hms) as (md & tq & Hw & _ & _). destruct (Hw s) as (md' & ->). cbn [bind]. rewrite HT. cbn [bind]. rewrite Hg. reflexivity.
    + (* motor equation by a motor state *)
      rewrite Hmap2 by lia. cbn [nth]. apply (derivable_pt_lim_ext (fun s => comp (mo_ode mo (list_set j s ms) u w) i)); [|apply D1; lia].
      intros s. rewrite Hsys by apply Lset. destruct (Hval _ (Lset j s)) as (md & tq & _ & -> & ->). cbn [bind]. rewrite Hg. reflexivity.
Qed.
Print Assumptions system_jacobian_is_derivative.

(** ** C93 Limits of the system *)
Theorem system_limits_spec :
  forall names motor load u l, set_limits names motor load u = Ok l ->
  length l = length names /\
  (exists i, nth_error names i = Some "u_sup"%string /\ nth_error l i = Some (Fin u)) /\
  forall i k, NoDup names -> nth_error names i = Some k -> k <> "u_sup"%string ->
    (nth_error l i = Some Inf <-> dict_get k motor = None /\ dict_get k load = None) /\
    (forall r, nth_error l i = Some (Fin r) <->
       (dict_get k motor = Some r \/ dict_get k load = Some r) /\
       (forall v, dict_get k motor = Some v \/ dict_get k load = Some v -> r <= v)).
Proof.
  intros names motor load u l H. unfold set_limits in H. destruct (str_index "u_sup"%string names) as [i0|] eqn:Ei; [|discriminate]. injection H as <-.
  pose proof (str_index_ok _ _ _ Ei) as Hi0.
  assert (Hlt : (i0 < length names)%nat) by (apply nth_error_Some; congruence).
  split; [now rewrite list_set_length, map_length|]. split.
  { exists i0. split; [exact Hi0|]. rewrite list_set_nth_error, map_length. destruct (Nat.eqb_spec i0 i0); [|lia]. destruct (Nat.ltb_spec i0 (length names)); [reflexivity|lia]. }
  intros i k Hnd Hk Hne. assert (Hneq : i <> i0) by (intros ->; congruence).
  rewrite list_set_nth_error. destruct (Nat.eqb_spec i0 i); [lia|]. rewrite nth_error_map, Hk. cbn [option_map]. unfold get_lim.
  destruct (dict_get k motor) as [x|], (dict_get k load) as [y|]; cbn [lim_min].
  - split; [split; [discriminate|intros [? _]; discriminate]|]. intros r. split.
    + intros E. injection E as <-. unfold Rmin. destruct (Rle_dec x y).
      * split; [auto|]. intros v [E|E]; injection E as <-; lra.
      * split; [auto|]. intros v [E|E]; injection E as <-; lra.
    + intros [Hr Hm]. pose proof (Hm x (or_introl eq_refl)). pose proof (Hm y (or_intror eq_refl)). do 2 f_equal. unfold Rmin. destruct (Rle_dec x y), Hr as [E|E]; injection E as ->; lra.
  - split; [split; [discriminate|intros [? _]; discriminate]|]. intros r. split.
    + intros E. injection E as <-. split; [auto|]. intros v [E|E]; [injection E as <-; lra|discriminate].
    + intros [[E|E] _]; [now injection E as ->|discriminate].
  - split; [split; [discriminate|intros [_ ?]; discriminate]|]. intros r. split.
    + intros E. injection E as <-. split; [auto|]. intros v [E|E]; [discriminate|injection E as <-; lra].
    + intros [[E|E] _]; [discriminate|now injection E as ->].
  - split; [tauto|]. intros r. split; [discriminate|]. intros [[E|E] _]; discriminate.
Qed.
Print Assumptions system_limits_spec.

(** ** C94 The supply is loaded with the current that the converter draws *)
(** The converter is asked for its supply current before it is asked for voltages; the
    latter call moves it to the switching state of the interval.  The supply therefore
    sees the previous switching state: after the upper switch (action 1) a step with
    the lower switch (action 2) has output voltage 0 but the supply still delivers the
    whole motor current. *)
Theorem supply_current_of_previous_state_refuted :
  forall S U V (sp : supply_if S) (f : rhs U) tau (view : list R -> res V) (cur : V -> list R) volt volt_last out limits p x x' o,
  sy_c x = F2 p -> f2_il p = 0 -> f2_sw p = 1%Z -> 0 < f2_tau p ->
  simulate fin_if sp f tau view cur volt volt_last act_id out limits 2%Z x = (x', Ok o) -> eu_t (sy_e x) = sy_t x ->
  exists (sl : segment fin S U) y0 v i, eu_y (sy_e x) = Some y0 /\ view y0 = Ok v /\ head_r (cur v) = Ok i /\
    tiles (sy_t x) y0 (sg_c0 sl) (sy_s x) [sl] (sy_t x + tau) (sg_y1 sl) (sy_c x') (sy_s x') /\
    fin_i_sup (sg_c0 sl) (cur v) = Ok i /\ sp_get sp (sy_s x) (sy_t x) i = (sg_s1 sl, Ok (sg_sup sl)) /\
    sg_conv sl = [0] /\ fin_i_sup (sg_c1 sl) (cur v) = Ok 0.
Proof.
  intros S U V sp f tau view cur volt volt_last out limits p x x' o Hc Hil Hsw Htau Hs Ht.
  destruct (simulate_covers_the_period _ _ _ _ _ _ _ _ _ _ _ _ _ _ _ _ _ _ _ _ Hs Ht) as (y0 & y1 & v0 & a' & c' & ts & segs & sl & K1 & K2 & K3 & K4 & K5 & K6 & K7 & _ & K9 & _).
  injection K4 as <-. rewrite Hc in K5. cbn [fin_if cv_set_action fin_set_action lift] in K5.
  unfold f2_set_action, f2_pattern in K5. cbn [discrete_contains f2_sw f2_il f2_start f2_tau] in K5. rewrite Hsw, Hil in K5.
  change (discrete_contains 3 2) with true in K5. cbn [Z.eqb Pos.eqb orb] in K5. destruct (reqP 0 0); [|lra]. cbn [fst snd] in K5. injection K5 as <- <-.
  cbn [removelast] in K7. destruct segs; [|discriminate]. cbn [app] in K6. pose proof K6 as K6'. cbn [tiles] in K6'. destruct K6' as (T1 & T2 & T3 & T4 & T5 & T6 & T7 & T8).
  destruct K9 as (v & isup & M1 & M2 & M3 & M4 & M5 & M6). rewrite T2, K3 in M1. injection M1 as <-. rewrite T3 in M2, M4. cbn [fin_if cv_i_sup cv_convert fin_i_sup fin_convert lift] in M2, M4.
  unfold f2_i_sup in M2. cbn [f2_sw Z.eqb Pos.eqb] in M2.
  unfold f2_convert, f2_next_sw in M4. cbn [f2_pat f2_start f2_il f2_tau f2_sw last] in M4. rewrite T4 in M3.
  assert (E4 : (F2 {| f2_tau := f2_tau p; f2_il := 0; f2_start := sy_t x; f2_sw := 2; f2_pat := [2%Z] |}, Ok [0]) = (sg_c1 sl, Ok (sg_conv sl))).
  { destruct (rlt (sy_t x + 0) (sg_from sl - f2_tau p / 1000)); exact M4. }
  injection E4 as Ec1 Econv.
  exists sl, y0, v0, isup. split; [exact K1|]. split; [exact K3|]. split; [exact M2|]. split.
  { cbn [tiles]. rewrite T1, T2, T4. auto 10. }
  split. { rewrite T3. cbn [fin_i_sup]. unfold f2_i_sup. cbn [f2_sw Z.eqb Pos.eqb]. exact M2. }
  split; [exact M3|]. split; [symmetry; exact Econv|rewrite <- Ec1; reflexivity].
Qed.
Print Assumptions supply_current_of_previous_state_refuted.

(** ** C95 A sampled RC supply *)
(** The supply is asked at the start of the period in every interval, so its voltage is
    constant during the period; the first request integrates the supply's own equation
    over the previous period, with the current at the start of this one. *)
Lemma rc_get_again s t i s' us : rc_get s t i = (s', Ok us) -> eu_t (rc_solver s') = t /\ eu_y (rc_solver s') = Some us /\ eu_n (rc_solver s') = eu_n (rc_solver s).
Proof.
  unfold rc_get. destruct (integrate rc_rhs _ t) as [sv' u] eqn:E. intros H. injection H as <- ->. cbn [rc_solver].
  unfold integrate in E. cbn [set_f_params eu_p eu_y eu_n eu_t] in E. destruct (eu_y (rc_solver s)) as [y|]; [|discriminate].
  set (r := match eu_n (rc_solver s) with O => _ | S _ => _ end) in E. destruct r as [y'|]; [|discriminate]. injection E as <- <-. auto.
Qed.
Lemma rc_get_same_time s i s' us y : eu_n (rc_solver s) = 1%nat -> eu_y (rc_solver s) = Some y -> rc_get s (eu_t (rc_solver s)) i = (s', Ok us) -> us = y.
Proof.
  intros Hn Hy H. unfold rc_get, integrate in H. cbn [set_f_params eu_p eu_y eu_n eu_t] in H. rewrite Hn, Hy in H.
  set (p := {| p_u0 := rc_u0 s; p_i := i; p_r := rc_r s; p_c := rc_c s |}) in H.
  destruct (rc_rhs p (eu_t (rc_solver s)) y) as [d|] eqn:Ed; cbn [bind] in H; [|discriminate].
  unfold rc_rhs in Ed. destruct y as [|u0 y]; [discriminate|]. destruct (req _ 0) in Ed; [discriminate|]. injection Ed as <-.
  rewrite Rminus_eq_0 in H. unfold np_add, vscale in H. cbn [map length] in H. destruct y as [|u1 y]; cbn in H; [|discriminate]. injection H as _ <-. f_equal. ring.
Qed.
Theorem rc_supply_constant_in_period :
  forall C A U V (cv : conv_if C A) (f : rhs U) tau (view : list R -> res V) cur volt volt_last act out limits a x x' o,
  eu_n (rc_solver (sy_s x)) = 1%nat -> eu_t (sy_e x) = sy_t x ->
  simulate cv rc_if f tau view cur volt volt_last act out limits a x = (x', Ok o) ->
  exists y0 y1 c' (segs : list (segment C rc U)) v isup us s1, segs <> [] /\
    eu_y (sy_e x) = Some y0 /\ tiles (sy_t x) y0 c' (sy_s x) segs (sy_t x + tau) y1 (sy_c x') (sy_s x') /\
    view y0 = Ok v /\ cv_i_sup cv c' (cur v) = Ok isup /\
    rc_get (sy_s x) (sy_t x) isup = (s1, Ok us) /\ Forall (fun s => sg_sup s = us) segs /\
    eu_t (rc_solver (sy_s x')) = sy_t x /\ eu_y (rc_solver (sy_s x')) = Some us.
Proof.
  intros C A U V cv f tau view cur volt volt_last act out limits a x x' o Hn Ht Hs.
  destruct (simulate_covers_the_period _ _ _ _ _ _ _ _ _ _ _ _ _ _ _ _ _ _ _ _ Hs Ht) as (y0 & y1 & v0 & a' & c' & ts & segs & sl & K1 & K2 & K3 & K4 & K5 & K6 & K7 & K8 & K9 & _).
  assert (Hall : Forall (fun s => exists v isup, view (sg_y0 s) = Ok v /\ cv_i_sup cv (sg_c0 s) (cur v) = Ok isup /\ rc_get (sg_s0 s) (sy_t x) isup = (sg_s1 s, Ok (sg_sup s))) (segs ++ [sl])).
  { apply Forall_app. split; [|constructor; [|constructor]].
    - eapply Forall_impl; [|exact K8]. intros s (v & isup & M1 & M2 & M3 & _). exists v, isup. auto.
    - destruct K9 as (v & isup & M1 & M2 & M3 & _). exists v, isup. auto. }
  clear K8 K9. assert (Hne : segs ++ [sl] <> []) by (destruct segs; discriminate). set (l := segs ++ [sl]) in *. clearbody l.
  (* after one request every further one at the same time returns the same *)
  assert (Hrest : forall (l : list (segment C rc U)) t y c s us, eu_n (rc_solver s) = 1%nat -> eu_t (rc_solver s) = sy_t x -> eu_y (rc_solver s) = Some us ->
    tiles t y c s l (sy_t x + tau) y1 (sy_c x') (sy_s x') ->
    Forall (fun s => exists v isup, view (sg_y0 s) = Ok v /\ cv_i_sup cv (sg_c0 s) (cur v) = Ok isup /\ rc_get (sg_s0 s) (sy_t x) isup = (sg_s1 s, Ok (sg_sup s))) l ->
    Forall (fun s => sg_sup s = us) l /\ eu_t (rc_solver (sy_s x')) = sy_t x /\ eu_y (rc_solver (sy_s x')) = Some us).
  { clear. intros l. induction l as [|s0 l IH]; intros t y c s us H1 H2 H3 H4 H5; cbn [tiles] in H4.
    - destruct H4 as (_ & _ & _ & <-). auto.
    - destruct H4 as (_ & _ & _ & E & H4). inversion H5 as [|? ? (v & isup & _ & _ & B) H5']; subst. rewrite <- H2 in B at 1.
      pose proof (rc_get_same_time _ _ _ _ _ H1 H3 B) as E. rewrite H2 in B. destruct (rc_get_again _ _ _ _ _ B) as (G1 & G2 & G3).
      assert (G4 : eu_n (rc_solver (sg_s1 s0)) = 1%nat) by congruence. destruct (IH _ _ _ _ (sg_sup s0) G4 G1 G2 H4 H5') as (I1 & I2 & I3). rewrite E in *. auto. }
  destruct l as [|s0 l]; [congruence|]. pose proof K6 as K6'. cbn [tiles] in K6'. destruct K6' as (T1 & T2 & T3 & T4 & T5).
  inversion Hall as [|? ? (v & isup & B1 & B2 & B3) Hall']; subst.
  destruct (rc_get_again _ _ _ _ _ B3) as (G1 & G2 & G3).
  assert (G4 : eu_n (rc_solver (sg_s1 s0)) = 1%nat) by congruence. destruct (Hrest l _ _ _ _ _ G4 G1 G2 T5 Hall') as (I1 & I2 & I3).
  exists (sg_y0 s0), y1, (sg_c0 s0), (s0 :: l), v, isup, (sg_sup s0), (sg_s1 s0).
  split; [exact Hne|]. split; [exact K1|]. split; [exact K6|]. split; [exact B1|]. split; [exact B2|]. split; [congruence|]. split; [constructor; [reflexivity|exact I1]|]. auto.
Qed.
Print Assumptions rc_supply_constant_in_period.

(** ** C96 A step of the externally excited machine with several intervals *)
(** Inside the loop only two of the four voltages reach the transformation of three
    phases: whenever the converter switches inside the period the step raises. *)
Theorem eesm_switching_inside_period_refuted :
  forall C S A (cv : conv_if C A) (sp : supply_if S) f tau ml mo act out limits a x y0 v0 a' c' ts,
  eu_y (sy_e x) = Some y0 -> eesm_view ml mo y0 = Ok v0 -> act v0 a = Ok a' -> cv_set_action cv (sy_c x) a' (sy_t x) = (c', Ok ts) ->
  (2 <= length ts)%nat ->
  exists e, snd (simulate cv sp f tau (eesm_view ml mo) snd eesm_volt eesm_volt_last act out limits a x) = Err e.
Proof.
  intros C S A cv sp f tau ml mo act out limits a x y0 v0 a' c' ts H1 H2 H3 H4 Hlen.
  destruct (simulate cv sp f tau (eesm_view ml mo) snd eesm_volt eesm_volt_last act out limits a x) as [x' [o|e]] eqn:E; [|exists e; reflexivity]. exfalso.
  destruct (simulate_inv _ _ _ _ _ _ _ _ _ _ _ _ _ _ _ E)
    as (z0 & w0 & b & d & ts' & vl & iv & y1 & y2 & segs & sl & st & G1 & G2 & G3 & G4 & G5 & G6 & G7 & _).
  rewrite H1 in G1. injection G1 as <-. rewrite H2 in G2. injection G2 as <-. rewrite H3 in G3. injection G3 as <-. rewrite H4 in G4. injection G4 as <- <-.
  destruct segs as [|s segs].
  { destruct ts as [|t1 [|t2 ts]]; cbn [length] in Hlen; try lia. cbn in G6. destruct ts; discriminate. }
  inversion G7 as [|? ? (v & isup & _ & _ & _ & _ & K & _) _]; subst. unfold eesm_volt in K.
  set (u := flat_map _ _) in K. bindh K. destruct (abc_to_dq_len _ _ _ E0) as [L _]. rewrite firstn_length in L. lia.
Qed.
Print Assumptions eesm_switching_inside_period_refuted.
(** Such a switching instant exists whenever a half bridge of the B6 bridge changes
    between its switches and the interlocking time is not zero: here all three go from
    the lower to the upper switch, the excitation bridge stays. *)
Example eesm_switching_example :
  let leg sw := {| f2_tau := 1; f2_il := 1 / 2; f2_start := 0; f2_sw := sw; f2_pat := [sw] |} in
  exists ts, snd (fm_set_action [F6 {| f6_tau := 1; f6_a := leg 2%Z; f6_b := leg 2%Z; f6_c := leg 2%Z |}; F4 {| f4_tau := 1; f4_a := leg 1%Z; f4_b := leg 1%Z |}] [7; 0]%Z 5) = Ok ts /\
  (2 <= length ts)%nat.
Proof.
  intros leg.
  assert (Hin : forall ts, (In (5 + 1/2) ts /\ In (5 + 1) ts) -> (2 <= length ts)%nat).
  { intros [|a [|b ts]] [H1 H2]; cbn in *; try lia; destruct H1 as [H1|[]], H2 as [H2|[]]; lra. }
  set (cs := [_; _]).
  assert (E : exists ts, snd (fm_set_action cs [7; 0]%Z 5) = Ok ts /\ In (5 + 1/2) ts /\ In (5 + 1) ts).
  { unfold cs, leg, fm_set_action. cbn -[Rplus Rdiv Rmult rlt req sort_set IZR].
    change (Pos.to_nat 7) with 7%nat. cbn -[Rplus Rdiv Rmult rlt req sort_set IZR]. unfold f2_pattern. cbn -[Rplus Rdiv Rmult rlt req sort_set IZR].
    destruct (reqP (1 / 2) 0); [lra|]. cbn -[Rplus Rdiv Rmult rlt req sort_set IZR].
    eexists; split; [reflexivity|]; rewrite !sort_set_in, !in_app_iff, !sort_set_in; cbn; tauto. }
  destruct E as (ts & E & H). exists ts. auto.
Qed.

(** ** C97 Rotor quantities of the doubly fed machine *)
(** The rotor voltages are applied in the stator frame, turned by the rotor angle; the
    field angle used on the way cancels. *)
Theorem dfim_rotor_voltage_frame :
  forall sd rd ef eel is ir u us ur, dfim_volt sd rd (ef, eel, is, ir) u = Ok [us; ur] ->
  exists a b, t_23 (rotor_part sd rd u) = Ok [a; b] /\ q [a; b] eel = Ok ur /\ t_23 (stator_part sd u) = Ok us.
Proof.
  intros sd rd ef eel is ir u us ur H. unfold dfim_volt in H. repeat bindh H. apply Ok_inj in H. injection H as <- <-.
  unfold abc_to_dq, el_angle in E. bindh E. destruct (t_23_len _ _ E2) as [_ L]. destruct (len2 _ L) as (a & b & ->). exists a, b. split; [reflexivity|].
  rewrite q_inv_val in E. apply Ok_inj in E. subst v. unfold dq_to_alphabeta, el_angle in E1. rewrite q_val in E1. apply Ok_inj in E1. subst v1. split; [|exact E0].
  rewrite q_val. f_equal. rewrite cos_minus, sin_minus. pose proof (sincos ef) as Hs.
  f_equal; [|f_equal].
  - transitivity ((sin ef * sin ef + cos ef * cos ef) * (cos eel * a - sin eel * b)); [rewrite Hs; ring|ring].
  - transitivity ((sin ef * sin ef + cos ef * cos ef) * (sin eel * a + cos eel * b)); [rewrite Hs; ring|ring].
Qed.
Print Assumptions dfim_rotor_voltage_frame.

Lemma q_inj r1 r2 a b : q [r1; r2] a = q [r1; r2] b -> same_angle a b \/ (r1 = 0 /\ r2 = 0).
Proof.
  intros H. apply (dq_to_abc_inj r1 r2 a b). unfold dq_to_abc, el_angle. now rewrite H.
Qed.
Lemma same_angle_opp a : same_angle (- a) 0 -> same_angle a 0.
Proof. intros [k Hk]. exists (- k)%Z. rewrite opp_IZR. lra. Qed.
(** The rotor currents of the doubly fed motor: with the stator current they give the rotor
    flux of the motor state, and the torque of the motor model is the one between the stator
    and the rotor winding. *)
Theorem dfim_rotor_current_flux :
  forall ml im ia ib pa pb eps mech r1 r2, length mech = ml_n ml -> im_lr im <> 0 -> rotor_alphabeta ml im (mech ++ [ia; ib; pa; pb; eps]) = Ok [r1; r2] ->
  pa = im_lm im * ia + im_lr im * r1 /\ pb = im_lm im * ib + im_lr im * r2 /\
  im_torque im [ia; ib; pa; pb; eps] = Ok (3 / 2 * im_p im * im_lm im * (r1 * ib - r2 * ia)).
Proof.
  intros ml im ia ib pa pb eps mech r1 r2 L HL H. unfold rotor_alphabeta, item in H. rewrite <- L in H. rewrite !nth_error_app2 in H by lia. replace (length mech - length mech)%nat with 0%nat in H by lia. replace (length mech + 1 - length mech)%nat with 1%nat in H by lia. replace (length mech + 2 - length mech)%nat with 2%nat in H by lia. replace (length mech + 3 - length mech)%nat with 3%nat in H by lia. cbn [nth_error bind] in H. injection H as <- <-.
  split; [field; exact HL|]. split; [field; exact HL|]. unfold im_torque. cbn [item nth_error bind]. f_equal. unfold im_lr in *. field. exact HL.
Qed.
Print Assumptions dfim_rotor_current_flux.
Example dfim_rotor_current_example : let im := {| im_p := 2; im_lm := 3 / 10; im_lsigs := 1 / 100; im_lsigr := 1 / 100; im_rs := 4; im_rr := 5 |} in
  im_lr im <> 0 /\ exists r1 r2, rotor_alphabeta const_load im ([100] ++ [1; 2; 1 / 2; 1 / 3; 0]) = Ok [r1; r2] /\ r1 * 2 - r2 * 1 <> 0.
Proof. cbn zeta. split; [unfold im_lr; cbn [im_lm im_lsigr]; lra|]. do 2 eexists. split; [reflexivity|]. unfold im_lr. cbn [im_lm im_lsigr]. lra. Qed.
(** The rotor currents handed to the converter are not turned into the rotor frame: they
    are the currents of the rotor phases (reported as i_rdef in the same frame) only if
    the electrical rotor angle is a multiple of 2 pi or no rotor current flows. *)
Theorem dfim_converter_rotor_currents_refuted :
  forall ml mo im y ef eel is ir r1 r2, dfim_view ml mo im y = Ok (ef, eel, is, ir) -> rotor_alphabeta ml im y = Ok [r1; r2] ->
  forall i_dq i_rdef, alphabeta_to_dq [r1; r2] ef false = Ok i_dq -> dq_to_abc i_dq (ef - eel) false = Ok i_rdef ->
  (ir = i_rdef <-> same_angle eel 0 \/ (r1 = 0 /\ r2 = 0)).
Proof.
  intros ml mo im y ef eel is ir r1 r2 Hv Hr i_dq i_rdef H1 H2. unfold dfim_view in Hv. repeat bindh Hv. apply Ok_inj in Hv. injection Hv as <- <- <- <-.
  assert (Ev4 : v4 = [r1; r2]) by congruence. subst v4.
  assert (Hd : dq_to_abc [r1; r2] (- v0) false = Ok i_rdef).
  { rewrite <- H2. unfold alphabeta_to_dq, el_angle in H1. rewrite q_inv_val in H1. injection H1 as <-. unfold dq_to_abc, el_angle. rewrite !q_val. cbn [bind]. f_equal.
    rewrite cos_neg, sin_neg, cos_minus, sin_minus. pose proof (sincos v) as Hs. f_equal; [|f_equal].
    - transitivity ((sin v * sin v + cos v * cos v) * (cos v0 * r1 + sin v0 * r2)); [rewrite Hs; ring|ring].
    - transitivity ((sin v * sin v + cos v * cos v) * (cos v0 * r2 - sin v0 * r1)); [rewrite Hs; ring|ring]. }
  assert (H0 : dq_to_abc [r1; r2] 0 false = Ok v5).
  { rewrite <- E5. unfold dq_to_abc, el_angle, alphabeta_to_abc. rewrite q_val, cos_0, sin_0. cbn [bind]. f_equal. f_equal; [ring|f_equal; ring]. }
  split.
  - intros ->. rewrite <- H0 in Hd. destruct (dq_to_abc_inj _ _ _ _ Hd) as [Hs|Hz]; [left; now apply same_angle_opp|auto].
  - intros [[k Hk]|[-> ->]].
    + assert (Hs : same_angle (- v0) 0) by (exists (- k)%Z; rewrite opp_IZR; lra). rewrite (dq_to_abc_angle _ _ _ Hs) in Hd. congruence.
    + unfold dq_to_abc, el_angle in Hd, H0. rewrite q_val in Hd, H0. cbn [bind] in Hd, H0. rewrite t_32_val in Hd, H0. injection Hd as <-. injection H0 as <-. f_equal; [ring|f_equal; [field|f_equal; field]].
Qed.
Print Assumptions dfim_converter_rotor_currents_refuted.

(** The rotor dq currents announced after a reset and after a step are in different
    frames: for the same state they agree only if the wrapped rotor angle is a multiple
    of 2 pi or no rotor current flows. *)
Theorem dfim_reset_rotor_currents_refuted :
  forall ef eel r1 r2 at_reset at_step,
  alphabeta_to_dq [r1; r2] (ef - eel) false = Ok at_reset -> alphabeta_to_dq [r1; r2] ef false = Ok at_step ->
  (at_reset = at_step <-> same_angle eel 0 \/ (r1 = 0 /\ r2 = 0)).
Proof.
  intros ef eel r1 r2 at_reset at_step H1 H2. unfold alphabeta_to_dq, el_angle, q_inv in *. split.
  - intros ->. rewrite <- H2 in H1. destruct (q_inj _ _ _ _ H1) as [[k Hk]|Hz]; [left; exists k; lra|auto].
  - intros [Hs|[-> ->]]; [|rewrite q_val in H1, H2; injection H1 as <-; injection H2 as <-; f_equal; [ring|f_equal; ring]].
    assert (Hs' : same_angle (- (ef - eel)) (- ef)) by (destruct Hs as [k Hk]; exists k; lra). destruct (same_angle_trig _ _ Hs') as [Hc Hsn].
    unfold q in H1, H2. rewrite Hc, Hsn in H1. congruence.
Qed.
Print Assumptions dfim_reset_rotor_currents_refuted.
(** These are the entries of the two state vectors. *)
Theorem dfim_rotor_current_entries :
  forall ml mo im sd rd v iv st o mech ms u us o', mo_nc mo = 2%nat -> length mech = ml_n ml ->
  dfim_out ml mo im sd rd v iv st = Ok o -> dfim_obs ml mo im sd rd mech ms u us = Ok o' ->
  (exists r i, rotor_alphabeta ml im (iv_y iv) = Ok r /\ alphabeta_to_dq r (fst (fst (fst v))) false = Ok i /\ firstn 2 (skipn (ml_n ml + 9) o) = i) /\
  (exists r i ef eel, rotor_alphabeta ml im (mech ++ ms) = Ok r /\ field_angle ml (mech ++ ms) = Ok ef /\ item (mech ++ ms) (eps_idx ml mo) = Ok eel /\
     alphabeta_to_dq r (wrap ef - wrap eel) false = Ok i /\ firstn 2 (skipn (ml_n ml + 9) o') = i).
Proof.
  intros ml mo im sd rd v iv st o mech ms u us o' Hn Hm H1 H2.
  assert (Hsk : forall m l : list R, length m = ml_n ml -> skipn (ml_n ml + 9) (m ++ l) = skipn 9 l).
  { intros m l Hl. rewrite skipn_app, skipn_all2 by lia. cbn [app]. f_equal. lia. }
  split.
  - unfold dfim_out in H1. destruct v as [[[ef eel] is] ir]. repeat bindh H1. apply Ok_inj in H1. subst o.
    exists v7, v8. split; [first [exact E7|reflexivity]|]. split; [exact E8|]. pose proof (select_len _ _ _ E3) as L1. unfold load_idx in L1. rewrite seq_length in L1.
    rewrite Hsk by exact L1. destruct (len3 _ (dq_to_abc_len _ _ _ E6)) as (x1 & x2 & x3 & ->). destruct (len2 _ (q_len _ _ _ E5)) as (x4 & x5 & ->).
    destruct (len3 _ (dq_to_abc_len _ _ _ E9)) as (x6 & x7 & x8 & ->). destruct (len2 _ (q_len _ _ _ E8)) as (x9 & x10 & ->). reflexivity.
  - unfold dfim_obs in H2. repeat bindh H2. apply Ok_inj in H2. subst o'.
    match goal with E : rotor_alphabeta ml im (mech ++ ms) = Ok ?r, E' : alphabeta_to_dq ?r _ false = Ok ?i |- _ => exists r, i end.
    do 2 eexists. split; [first [eassumption|reflexivity]|]. split; [first [eassumption|reflexivity]|]. split; [first [eassumption|reflexivity]|]. split; [eassumption|]. rewrite Hsk by exact Hm.
    repeat match goal with
    | E : dq_to_abc _ _ _ = Ok ?w |- _ => destruct (len3 _ (dq_to_abc_len _ _ _ E)) as (? & ? & ? & ->); clear E
    | E : alphabeta_to_dq _ _ _ = Ok ?w |- _ => destruct (len2 _ (q_len _ _ _ E)) as (? & ? & ->); clear E
    end. reflexivity.
Qed.
Print Assumptions dfim_rotor_current_entries.

(** ** C98 The field angle points along the rotor flux *)
Theorem field_angle_orients_flux :
  forall ml y pa pb e, nth_error y (ml_n ml + 2) = Some pa -> nth_error y (ml_n ml + 3) = Some pb -> field_angle ml y = Ok e ->
  - PI <= e <= PI /\ alphabeta_to_dq [pa; pb] e false = Ok [sqrt (pa * pa + pb * pb); 0].
Proof.
  intros ml y pa pb e Ha Hb H. unfold field_angle in H. rewrite (nth_item _ _ _ Ha), (nth_item _ _ _ Hb) in H. cbn [bind] in H. injection H as <-.
  destruct (arctan2_spec pb pa) as (H1 & H2 & H3). cbv zeta in *. split; [exact H1|]. unfold alphabeta_to_dq, el_angle. rewrite q_inv_val.
  set (e := np_arctan2 pb pa) in *. set (r := sqrt (pa * pa + pb * pb)) in *. clearbody r. clearbody e. pose proof (sincos e) as Hs. f_equal. f_equal; [|f_equal].
  - rewrite H2, H3. transitivity (r * (sin e * sin e + cos e * cos e)); [ring|rewrite Hs; ring].
  - rewrite H2, H3. ring.
Qed.
Print Assumptions field_angle_orients_flux.

(** ** C99 The induction machine reports consistent stator currents *)
(** abc currents are the transformed alpha-beta currents of the state after the step,
    whatever angle is used on the way. *)
Theorem scim_reported_currents :
  forall ml mo v iv st o, scim_out ml mo v iv st = Ok o ->
  exists ia ib, select (stator_idx ml) (iv_y iv) = Ok [ia; ib] /\
    t_32 [ia; ib] = Ok (firstn 3 (skipn (ml_n ml + 1) o)) /\
    q_inv [ia; ib] (fst v) = Ok (firstn 2 (skipn (ml_n ml + 4) o)).
Proof.
  intros ml mo v iv st o H. unfold scim_out in H. repeat bindh H. apply Ok_inj in H. subst o.
  pose proof (select_len _ _ _ E2) as L1. unfold load_idx in L1. rewrite seq_length in L1.
  assert (Hsk : forall k (l : list R), skipn (ml_n ml + k) (v3 ++ l) = skipn k l).
  { intros k l. rewrite skipn_app, skipn_all2 by lia. cbn [app]. f_equal. lia. }
  rewrite !Hsk. pose proof (select_len _ _ _ E3) as L2. destruct (len2 _ L2) as (ia & ib & ->). exists ia, ib. split; [reflexivity|].
  unfold alphabeta_to_dq, el_angle in E4. pose proof E4 as E4'. rewrite q_inv_val in E4'. apply Ok_inj in E4'. subst v5.
  destruct (len3 _ (dq_to_abc_len _ _ _ E5)) as (x1 & x2 & x3 & ->). split; [|exact E4].
  unfold dq_to_abc, el_angle in E5. rewrite q_val in E5. cbn [bind] in E5. cbn [app skipn firstn]. rewrite <- E5. f_equal. pose proof (sincos (fst v)) as Hs. f_equal; [|f_equal].
  - transitivity ((sin (fst v) * sin (fst v) + cos (fst v) * cos (fst v)) * ia); [rewrite Hs; ring|ring].
  - transitivity ((sin (fst v) * sin (fst v) + cos (fst v) * cos (fst v)) * ib); [rewrite Hs; ring|ring].
Qed.
Print Assumptions scim_reported_currents.

(** ** C101 Three phase supplies *)
(** No system can be used with the AC three phase supply: the constructor of the three
    phase systems fails, and the DC systems fail in reset. *)
Theorem three_phase_supply_unusable_refuted :
  (forall names, three_phase_low names 3 = Err IndexError) /\
  (forall C A (cv : conv_if C A) U draw limits ml mo nvolt init (x : sys C ac U), ac_phases (sy_s x) = 3%nat -> mo_cidx mo = seq 0 (mo_nc mo) ->
     (forall c u, snd (cv_reset cv c) = Ok u -> length u = nvolt) ->
     (forall mech ms, init = Ok (mech, ms) -> length mech = ml_n ml) -> length limits = (ml_n ml + 1 + mo_nc mo + nvolt + 1)%nat ->
     exists e, snd (reset cv (ac_if draw) limits (dc_obs ml mo) init x) = Err e).
Proof.
  split.
  - intros names. unfold three_phase_low, put.
    assert (E : forallb (fun i => Nat.ltb i (length (repeat (-1) names))) (seq (names - 1) 3) = false).
    { rewrite repeat_length. cbn [seq forallb]. destruct names as [|n]; [reflexivity|].
      destruct (Nat.ltb_spec (S (S n - 1)) (S n)) as [Hl|Hl]; [lia|]. now rewrite Bool.andb_false_r. }
    rewrite E. reflexivity.
  - intros C A cv U draw limits ml mo nvolt init x Hp Hcid Hu Hmech Hlim.
    destruct (snd (reset cv (ac_if draw) limits (dc_obs ml mo) init x)) as [o|e] eqn:E; [|exists e; reflexivity]. exfalso.
    destruct (reset cv (ac_if draw) limits (dc_obs ml mo) init x) as [x' r] eqn:E'. cbn [snd] in E. subst r.
    destruct (reset_inv _ _ _ _ _ _ _ _ E') as (mech & ms & u & us & st & Hi & H1 & H2 & H3 & H4 & _).
    specialize (Hu _ _ H1). specialize (Hmech _ _ Hi). cbn [ac_if sp_reset] in H2.
    assert (Lus : length us = 3%nat).
    { unfold ac_reset in H2. destruct (ac_fixed (sy_s x)); cbn in H2; injection H2 as <-; unfold ac_get; cbn [ac_phases]; rewrite Hp; reflexivity. }
    unfold dc_obs in H3. repeat bindh H3. apply Ok_inj in H3. pose proof (select_len _ _ _ E0) as L0. rewrite Hcid, seq_length in L0.
    unfold np_div in H4. destruct (Nat.eqb_spec (length st) (length limits)) as [El|]; [|discriminate].
    rewrite <- H3, !app_length, firstn_length, !app_length, scale_length, Hlim, Lus, L0, Hu in El. cbn [length] in El. lia.
Qed.
Print Assumptions three_phase_supply_unusable_refuted.

(** ** C103 The supply voltage of three phase systems stays in the announced space *)
(** With the single phase AC supply the observed supply voltage of a synchronous machine
    is the sine wave over the nominal voltage.  The announced lower bound is 0. *)
Theorem ac_supply_observation_refuted :
  forall C A (cv : conv_if C A) f tau draw ml mo act limits a x x' o u,
  mo_nc mo = 2%nat -> ac_phases (sy_s x) = 1%nat -> nth_error limits (ml_n ml + 12) = Some (Fin u) ->
  simulate cv (ac_if draw) f tau (sync_view ml mo) snd sync_volt sync_volt act (sync_out ml mo) limits a x = (x', Ok o) ->
  nth_error o (ml_n ml + 12) = Some (ac_amp (sy_s x) * sin (2 * PI * ac_f (sy_s x) * sy_t x + ac_phi (sy_s x)) / u) /\
  exists low, three_phase_low (ml_n ml + 13) 1 = Ok low /\ nth_error low (ml_n ml + 12) = Some 0.
Proof.
  intros C A cv f tau draw ml mo act limits a x x' o u Hn Hp Hl H. destruct (sync_simulate_inv _ _ _ _ _ _ _ _ _ _ _ _ H)
      as (segs & sl & y & mech & tq & iabc & idq & uu & udq & us & eo & eps & (y0 & c' & v0 & a' & ts & T1 & T2 & T3 & T4 & T5 & T6 & T7) & G2 & G3 & _ & G5 & G6 & _ & H1 & H1' & H2 & _ & Hsel & Hi & _ & _ & L1 & L2 & L3 & L4 & L5 & H3 & H4).
  assert (Hfix : forall g vo, segment_ok cv (ac_if draw) f (eu_n (sy_e x)) (sy_t x) (sync_view ml mo) snd vo g -> sg_s1 g = sg_s0 g /\ sg_sup g = ac_get (sg_s0 g) (sy_t x)).
  { intros g vo (v & isup & _ & _ & K & _). cbn in K. injection K as <- <-. auto. }
  assert (Hall : forall (l : list (segment C ac (list R))) t y c s t1 y1 c1 s1, tiles t y c s l t1 y1 c1 s1 -> Forall (fun g => sg_s1 g = sg_s0 g) l -> s1 = s).
  { clear. intros l. induction l as [|g l IH]; intros t y c s t1 y1 c1 s1 Ht Hf; cbn [tiles] in Ht; [destruct Ht as (_ & _ & _ & <-); reflexivity|].
    destruct Ht as (_ & _ & _ & E & Ht). inversion Hf as [|? ? B1 B2]; subst. rewrite (IH _ _ _ _ _ _ _ _ Ht B2). exact B1. }
  assert (Hs : sg_s0 sl = sy_s x).
  { apply (Hall _ _ _ _ _ _ _ _ _ T2). eapply Forall_impl; [|exact T7]. intros g Hg. exact (proj1 (Hfix g _ Hg)). }
  pose proof (proj2 (Hfix _ _ G2)) as Hus. rewrite Hs, G5 in Hus. unfold ac_get in Hus. rewrite Hp in Hus. split.
  - rewrite (obs_entry _ _ _ (ml_n ml + 12) (ac_amp (sy_s x) * sin (2 * PI * ac_f (sy_s x) * sy_t x + ac_phi (sy_s x))) (Fin u) H4); [reflexivity| |exact Hl].
    rewrite H3, ?Hus, !app_assoc. try rewrite Hus. apply nth_mid. rewrite !app_length. cbn [length]. lia.
  - unfold three_phase_low, put. cbn [seq forallb]. rewrite repeat_length. replace (ml_n ml + 13 - 1)%nat with (ml_n ml + 12)%nat by lia.
    destruct (Nat.ltb_spec (ml_n ml + 12) (ml_n ml + 13)); [|lia]. cbn [andb length Nat.eqb put_all]. eexists. split; [reflexivity|].
    rewrite list_set_nth_error, repeat_length, Nat.eqb_refl. destruct (Nat.ltb_spec (ml_n ml + 12) (ml_n ml + 13)); [reflexivity|lia].
Qed.
Print Assumptions ac_supply_observation_refuted.
