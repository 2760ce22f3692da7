(** Theorems about the flux observer (flux_observer.py) and the state observer
    (observers/observer.py). *)
From Verif Require Env_Proofs.
From Verif Require Import PyBase PyBaseFacts PyDict PyDictFacts Conv_Model Transform_Model Transform_Proofs Motor_Model PhysSys_Model PhysSys_Proofs Wrap_Model Wrap_Spec Wrap_Proofs Wrap_Proofs2 Wrap_Proofs4 Wrap_Props2.
Local Open Scope string_scope. Local Open Scope list_scope. Local Open Scope R_scope.

(** ** C62 Flux observer *)
(** Parameters of the observer for the induction motor [im]. *)
Definition observes (p : flux_par) (im : im_par) : Prop := fp_lm p = im_lm im /\ fp_lr p = im_lr im /\ fp_rr p = im_rr im /\ fp_p p = im_p im.

(** One update is one explicit Euler step of the rotor flux equations of the squirrel cage
    motor, whatever the stator voltages. *)
Theorem flux_update_is_euler_step :
  forall im p tau ia ib pa pb e ua ub w, observes p im -> im_lr im <> 0 -> im_rr im <> 0 ->
  exists d0 d1 d2 d3 d4, scim_ode im [ia; ib; pa; pb; e] [ua; ub] w = Ok [d0; d1; d2; d3; d4] /\
    flux_update p tau ia ib (w * fp_p p) (pa, pb) = (pa + tau * d2, pb + tau * d3).
Proof.
  intros im p tau ia ib pa pb e ua ub w (E1 & E2 & E3 & E4) H1 H2. unfold scim_ode, im_ode, item2, item. cbn [nth_error map bind]. unfold im_constants, matvec. cbn [forallb length Nat.eqb andb map]. do 5 eexists. split; [reflexivity|].
  unfold flux_update. rewrite E1, E2, E3, E4. cbn [fst snd dot]. unfold im_taur. f_equal; field; split; assumption.
Qed.
Print Assumptions flux_update_is_euler_step.
Definition small_im : im_par := {| im_p := 2; im_lm := 1 / 10; im_lsigs := 0; im_lsigr := 0; im_rs := 1; im_rr := 1 |}.
Definition small_flux (idx : list nat) : flux_par := {| fp_lm := 1 / 10; fp_lr := 1 / 10 + 0; fp_rr := 1; fp_p := 2; fp_idx := idx; fp_omega := 0; fp_limits := [] |}.
Example flux_update_example : observes (small_flux []) small_im /\ im_lr small_im <> 0 /\ im_rr small_im <> 0.
Proof. unfold observes, im_lr. cbn. repeat split; lra. Qed.

(** In a doubly fed motor the rotor voltage drives the flux as well; the observer has no
    access to it: its step misses [tau] times the rotor voltage. *)
Theorem flux_update_ignores_rotor_voltage_refuted :
  forall im p tau ia ib pa pb e ua ub ra rb w, observes p im -> im_lr im <> 0 -> im_rr im <> 0 ->
  exists d0 d1 d2 d3 d4, dfim_ode im [ia; ib; pa; pb; e] [[ua; ub]; [ra; rb]] w = Ok [d0; d1; d2; d3; d4] /\
    flux_update p tau ia ib (w * fp_p p) (pa, pb) = (pa + tau * d2 - tau * ra, pb + tau * d3 - tau * rb).
Proof.
  intros im p tau ia ib pa pb e ua ub ra rb w (E1 & E2 & E3 & E4) H1 H2. unfold dfim_ode, im_ode, item2, item. cbn [nth_error map bind]. unfold im_constants, matvec. cbn [forallb length Nat.eqb andb map]. do 5 eexists. split; [reflexivity|].
  unfold flux_update. rewrite E1, E2, E3, E4. cbn [fst snd dot]. unfold im_taur. f_equal; field; split; assumption.
Qed.
Print Assumptions flux_update_ignores_rotor_voltage_refuted.

Lemma flux_info_inv cs n i pr i' : aligned n i -> flux_info cs i = Ok (pr, i') ->
  exists lm lsr rr p psi isd, mi_induction (i_motor i) = true /\ dict_get "l_m" (mi_par (i_motor i)) = Some lm /\ dict_get "l_sigr" (mi_par (i_motor i)) = Some lsr /\ dict_get "r_r" (mi_par (i_motor i)) = Some rr /\ dict_get "p" (mi_par (i_motor i)) = Some p /\
    shown (i_names i) (i_limits i) "i_sd" = Some isd /\ psi = lm * isd /\
    fp_lm pr = lm /\ fp_lr pr = lm + lsr /\ fp_rr pr = rr /\ fp_p pr = p /\ dict_items cs (i_pos i) = Ok (fp_idx pr) /\ nth_error (i_names i) (fp_omega pr) = Some "omega" /\ fp_limits pr = i_limits i ++ [psi; PI] /\
    i' = {| i_names := i_names i ++ ["psi_abs"; "psi_angle"]; i_pos := positions (i_names i ++ ["psi_abs"; "psi_angle"]); i_limits := i_limits i ++ [psi; PI]; i_nominal := i_nominal i ++ [psi; PI];
            i_low := i_low i ++ [- psi; - PI]; i_high := i_high i ++ [psi; PI]; i_tau := i_tau i; i_act := i_act i; i_dead := i_dead i; i_motor := i_motor i |}.
Proof.
  intros (L1 & L2 & L3 & L4 & L5 & Hn & Hp) H. unfold flux_info, py_assert, dict_item in H. destruct (mi_induction (i_motor i)); [|discriminate]. cbn [bind] in H.
  destruct (dict_get "l_m" _) as [lm|] eqn:E1; [|discriminate]. cbn [bind] in H. destruct (dict_get "l_sigr" _) as [lsr|] eqn:E2; [|discriminate]. cbn [bind] in H. destruct (dict_get "r_r" _) as [rr|] eqn:E3; [|discriminate]. cbn [bind] in H. destruct (dict_get "p" _) as [p|] eqn:E4; [|discriminate]. cbn [bind] in H.
  destruct (str_index "i_sd" (i_names i)) as [j|] eqn:E5; [|discriminate]. cbn [bind] in H. destruct (item (i_limits i) j) as [isd|] eqn:E6; [|discriminate]. cbn [bind] in H. destruct (dict_items cs (i_pos i)) as [idx|] eqn:E7; [|discriminate]. cbn [bind] in H.
  destruct (dict_get "omega" (i_pos i)) as [om|] eqn:E8; [|discriminate]. cbn [bind] in H. apply Ok_inj in H. apply pair_equal_spec in H. destruct H as [<- <-]. exists lm, lsr, rr, p, (lm * isd), isd. cbn.
  do 5 (split; [reflexivity|]). split; [eapply item_shown; [exact Hn|apply str_index_ok, E5|exact E6]|]. do 6 (split; [reflexivity|]). split; [apply Hp, E8|]. split; reflexivity.
Qed.
Lemma div_mul_entry (o l : list R) extra lx i : length l = length o -> (forall x, In x l -> x <> 0) -> (i < length o)%nat -> nth_error (map2 Rdiv (map2 Rmult o l ++ extra) (l ++ lx)) i = nth_error o i.
Proof.
  revert l i. induction o as [|v o IH]; intros [|c l] i L Hl Hi; cbn in *; try lia. destruct i as [|i]; cbn; [f_equal; field; apply Hl; now left|]. apply IH; [lia|intros x Hx; apply Hl; now right|lia].
Qed.
Lemma div_extra (o l : list R) a b la lb : length l = length o -> map2 Rdiv (map2 Rmult o l ++ [a; b]) (l ++ [la; lb]) = map2 Rdiv (map2 Rmult o l) l ++ [a / la; b / lb].
Proof. revert l. induction o as [|v o IH]; intros [|c l] L; cbn in *; try lia; [reflexivity|]. f_equal. apply IH. lia. Qed.

(** A step shows the inner observation unchanged (if no limit is zero), and under the new
    names length and angle of the updated flux; the update uses the alpha-beta currents of
    the named phases and the electrical speed. *)
Theorem flux_observer_step :
  forall S n cs (m : machine S) M a x x' o', aligned n (m_info m) -> sized n m -> flux_machine cs m = Ok M -> length cs = 3%nat ->
  (forall l, In l (i_limits (m_info m)) -> l <> 0) -> ~ In "psi_abs" (i_names (m_info m)) -> ~ In "psi_angle" (i_names (m_info m)) ->
  m_sim M a x = (x', Ok o') ->
  exists o is ia ib w p lm lsr rr isd, m_sim m a (fl_in x) = (fl_in x', Ok o) /\
    values (i_names (m_info m)) (map2 Rmult o (i_limits (m_info m))) cs is /\ t_23 is = Ok [ia; ib] /\ shown (i_names (m_info m)) (map2 Rmult o (i_limits (m_info m))) "omega" = Some w /\
    dict_get "p" (mi_par (i_motor (m_info m))) = Some p /\ dict_get "l_m" (mi_par (i_motor (m_info m))) = Some lm /\ dict_get "l_sigr" (mi_par (i_motor (m_info m))) = Some lsr /\ dict_get "r_r" (mi_par (i_motor (m_info m))) = Some rr /\
    (forall im, im_lm im = lm -> im_lsigr im = lsr -> im_rr im = rr -> im_p im = p -> exists pr, observes pr im /\ fl_psi x' = flux_update pr (i_tau (m_info m)) ia ib (w * p) (fl_psi x)) /\
    (forall k, In k (i_names (m_info m)) -> shown (i_names (m_info M)) o' k = shown (i_names (m_info m)) o k) /\
    shown (i_names (m_info m)) (i_limits (m_info m)) "i_sd" = Some isd /\
    exists r th, shown (i_names (m_info M)) o' "psi_abs" = Some (r / (lm * isd)) /\ shown (i_names (m_info M)) o' "psi_angle" = Some (th / PI) /\ 0 <= r /\ -1 <= th / PI <= 1 /\
      fl_psi x' = (r * cos th, r * sin th).
Proof.
  intros S n cs m M a x x' o' Ha Hs HM Lcs Hlim Hf1 Hf2 Hm. unfold flux_machine in HM. destruct (flux_info cs (m_info m)) as [[pr i']|] eqn:Ei; [|discriminate]. cbn [bind fst snd] in HM. apply Ok_inj in HM. subst M.
  destruct (flux_info_inv cs n (m_info m) pr i' Ha Ei) as (lm & lsr & rr & p & psi & isd & _ & Glm & Glsr & Grr & Gp & Gisd & Epsi & P1 & P2 & P3 & P4 & Hidx & Hom & P5 & Ei').
  pose proof Ha as (L1 & L2 & L3 & L4 & L5 & Hn & Hp). destruct (dict_items_inv _ _ _ _ Hp Hidx) as (Li & Gi & Bi).
  cbn [m_sim] in Hm. unfold flux_sim in Hm. destruct (m_sim m a (fl_in x)) as [s r0] eqn:Em. destruct r0 as [o|e0]; [|discriminate]. cbn [bind] in Hm.
  destruct (np_mul_ok n m o Ha (proj2 Hs _ _ _ _ Em)) as [Emul Lph]. rewrite Emul in Hm. cbn [bind] in Hm. unfold phys in *. pose proof (proj2 Hs _ _ _ _ Em) as Lo. set (st := map2 Rmult o (i_limits (m_info m))) in *.
  destruct (select (fp_idx pr) st) as [is|] eqn:Es; [|discriminate]. cbn [bind] in Hm. destruct (item st (fp_omega pr)) as [w|] eqn:Ew; [|discriminate]. cbn [bind] in Hm.
  pose proof (values_select (i_names (m_info m)) st (fp_idx pr) cs is n Hn L1 Lph Li Gi Es) as V. assert (Lis : length is = 3%nat) by (rewrite (proj1 V); exact Lcs).
  destruct is as [|i1 [|i2 [|i3 [|i4 is]]]]; try discriminate Lis. rewrite t_23_val in Hm. unfold item in Hm. cbn [bind nth_error] in Hm. fold (item st (fp_omega pr)) in Ew.
  set (ia := 2 / 3 * (i1 - i2 / 2 - i3 / 2)) in *. set (ib := sqrt 3 / 3 * (i2 - i3)) in *. set (ps := flux_update pr (i_tau (m_info m)) ia ib (w * fp_p pr) (fl_psi x)) in *.
  apply pair_equal_spec in Hm. destruct Hm as [<- Hm]. unfold np_quot in Hm. rewrite P5 in Hm. rewrite !app_length, Lph, L2, Nat.eqb_refl in Hm. apply Ok_inj in Hm. cbn [fl_in fl_psi]. set (r := sqrt (fst ps * fst ps + snd ps * snd ps)) in *. set (th := np_arctan2 (snd ps) (fst ps)) in *.
  exists o, [i1; i2; i3], ia, ib, w, p, lm, lsr, rr, isd. split; [reflexivity|]. split; [exact V|]. split; [apply t_23_val|]. split; [eapply item_shown; eauto|]. do 4 (split; [assumption|]). split.
  { intros im I1 I2 I3 I4. exists pr. split; [unfold observes, im_lr; rewrite P1, P2, P3, P4, I1, I2, I3, I4; auto|]. unfold ps. rewrite P4. reflexivity. }
  assert (Hnd : NoDup (i_names i')) by (rewrite Ei'; cbn [i_names]; apply nodup_snoc2; [exact Hn|exact Hf1|exact Hf2|discriminate]). cbn [m_info].
  split; [|split; [exact Gisd|]].
  - intros k Hk. apply In_nth_error in Hk. destruct Hk as [i Hi]. assert (Hil : (i < n)%nat) by (rewrite <- L1; apply nth_error_Some; congruence). rewrite (shown_at (i_names (m_info m)) o i k Hn Hi), (shown_at (i_names i') o' i k Hnd).
    + subst o'. apply div_mul_entry; [lia|exact Hlim|lia].
    + rewrite Ei'. cbn [i_names]. rewrite nth_error_app1 by lia. exact Hi.
  - exists r, th. assert (Eo : o' = map2 Rdiv st (i_limits (m_info m)) ++ [r / psi; th / PI]) by (subst o'; apply div_extra; lia). assert (Ll : length (map2 Rdiv st (i_limits (m_info m))) = n) by (rewrite map2_length; lia).
    destruct (arctan2_spec (snd ps) (fst ps)) as (B & C1 & C2). cbv zeta in *. fold r th in B, C1, C2. pose proof PI_RGT_0 as Hpi. rewrite <- Epsi. split; [|split; [|split; [|split]]].
    + rewrite (shown_at (i_names i') o' n "psi_abs" Hnd); [rewrite Eo, <- Ll; apply nth_error_snoc2|rewrite Ei'; cbn [i_names]; rewrite <- L1; apply nth_error_snoc2].
    + rewrite (shown_at (i_names i') o' (Datatypes.S n) "psi_angle" Hnd); [rewrite Eo, <- Ll; apply nth_error_snoc2|rewrite Ei'; cbn [i_names]; rewrite <- L1; apply nth_error_snoc2].
    + apply sqrt_pos.
    + split; [apply (Rmult_le_reg_r PI); [lra|]; unfold Rdiv; rewrite Rmult_assoc, Rinv_l by lra; lra|apply (Rmult_le_reg_r PI); [lra|]; unfold Rdiv; rewrite Rmult_assoc, Rinv_l by lra; lra].
    + rewrite <- C1, <- C2. destruct ps; reflexivity.
Qed.
Print Assumptions flux_observer_step.
Definition induction (lim : R) (o : list R) : machine unit :=
  {| m_info := {| i_names := ["omega"; "i_sa"; "i_sb"; "i_sc"; "i_sd"]; i_pos := positions ["omega"; "i_sa"; "i_sb"; "i_sc"; "i_sd"]; i_limits := [1; lim; lim; lim; lim]; i_nominal := [1; lim; lim; lim; lim]; i_low := [-1; -1; -1; -1; -1]; i_high := [1; 1; 1; 1; 1];
                  i_tau := 1 / 10; i_act := SBox 3; i_dead := None; i_motor := {| mi_three := true; mi_induction := true; mi_par := [("p", 2); ("l_m", 1 / 10); ("l_sigr", 0); ("r_r", 1)] |} |};
     m_reset := fun s => (s, Ok o); m_sim := fun _ s => (s, Ok o) |}.
Lemma induction_ok lim o : length o = 5%nat -> aligned 5 (m_info (induction lim o)) /\ sized 5 (induction lim o).
Proof.
  intros L. split.
  - unfold aligned. cbn. do 5 (split; [reflexivity|]). assert (N : NoDup ["omega"; "i_sa"; "i_sb"; "i_sc"; "i_sd"]) by nodup. split; [exact N|]. intros k j. apply (positions_spec ["omega"; "i_sa"; "i_sb"; "i_sc"; "i_sd"]), N.
  - split; cbn; [intros s s' o' E|intros a s s' o' E]; injection E as _ <-; exact L.
Qed.
Example flux_observer_step_example : exists M x' o', flux_machine ["i_sa"; "i_sb"; "i_sc"] (induction 1 [0; 1; -1/2; -1/2; 1]) = Ok M /\ m_sim M (ABox []) {| fl_psi := (0, 0); fl_in := tt |} = (x', Ok o').
Proof. do 3 eexists. split; reflexivity. Qed.

(** A reset starts with flux zero; the announced data fit together again. *)
Theorem flux_observer_reset :
  forall S n cs (m : machine S) M x x' o', aligned n (m_info m) -> flux_machine cs m = Ok M -> m_reset M x = (x', Ok o') ->
  exists o, m_reset m (fl_in x) = (fl_in x', Ok o) /\ fl_psi x' = (0, 0) /\ o' = o ++ [0; 0].
Proof.
  intros S n cs m M x x' o' Ha HM Hm. unfold flux_machine in HM. destruct (flux_info cs (m_info m)) as [pi|]; [|discriminate]. cbn [bind] in HM. apply Ok_inj in HM. subst M. cbn [m_reset] in Hm. unfold flux_reset, post in Hm.
  destruct (m_reset m (fl_in x)) as [s [o|e]]; cbn [fst snd bind] in Hm; [|discriminate]. injection Hm as <- <-. exists o. auto.
Qed.
Print Assumptions flux_observer_reset.
Theorem flux_observer_announced :
  forall S n cs (m : machine S) M, aligned n (m_info m) -> flux_machine cs m = Ok M -> ~ In "psi_abs" (i_names (m_info m)) -> ~ In "psi_angle" (i_names (m_info m)) -> aligned (n + 2) (m_info M).
Proof.
  intros S n cs m M Ha HM Hf1 Hf2. unfold flux_machine in HM. destruct (flux_info cs (m_info m)) as [[pr i']|] eqn:Ei; [|discriminate]. cbn [bind fst snd] in HM. apply Ok_inj in HM. subst M.
  destruct (flux_info_inv cs n (m_info m) pr i' Ha Ei) as (lm & lsr & rr & p & psi & isd & _ & _ & _ & _ & _ & _ & _ & _ & _ & _ & _ & _ & _ & _ & ->). destruct Ha as (L1 & L2 & L3 & L4 & L5 & Hn & Hp).
  assert (Hnd : NoDup (i_names (m_info m) ++ ["psi_abs"; "psi_angle"])) by (apply nodup_snoc2; [exact Hn|exact Hf1|exact Hf2|discriminate]).
  unfold aligned. cbn [m_info i_names i_limits i_nominal i_low i_high i_pos]. rewrite !app_length, L1, L2, L3, L4, L5. do 5 (split; [reflexivity|]). split; [exact Hnd|]. intros k j. apply positions_spec, Hnd.
Qed.
Print Assumptions flux_observer_announced.

(** The observation is normalised but the announced range of the flux is not: with the rated
    current the shown flux is 1 after one step while the announced bound is 1/10. *)
Theorem flux_in_announced_space_refuted :
  exists (m : machine unit) M x' o' v h, aligned 5 (m_info m) /\ sized 5 m /\ flux_machine ["i_sa"; "i_sb"; "i_sc"] m = Ok M /\
    m_sim M (ABox []) {| fl_psi := (0, 0); fl_in := tt |} = (x', Ok o') /\ shown (i_names (m_info M)) o' "psi_abs" = Some v /\ shown (i_names (m_info M)) (i_high (m_info M)) "psi_abs" = Some h /\ h < v <= 1.
Proof.
  set (o := [0; 1; -1/2; -1/2; 1]). destruct (induction_ok 1 o eq_refl) as [Ha Hs]. exists (induction 1 o). destruct flux_observer_step_example as (M & x' & o' & HM & Hm). exists M, x', o'.
  assert (Hlim : forall l, In l (i_limits (m_info (induction 1 o))) -> l <> 0) by (cbn; intros l [<-|[<-|[<-|[<-|[<-|[]]]]]]; lra).
  assert (Hf1 : ~ In "psi_abs" (i_names (m_info (induction 1 o)))) by (cbn; intros Hc; repeat (destruct Hc as [Hc|Hc]; [discriminate|]); exact Hc).
  assert (Hf2 : ~ In "psi_angle" (i_names (m_info (induction 1 o)))) by (cbn; intros Hc; repeat (destruct Hc as [Hc|Hc]; [discriminate|]); exact Hc).
  destruct (flux_observer_step _ _ _ _ _ _ _ _ _ Ha Hs HM eq_refl Hlim Hf1 Hf2 Hm) as (o1 & is & ia & ib & w & p & lm & lsr & rr & isd & E1 & E2 & E3 & E4 & E5 & E6 & E7 & E8 & E9 & _ & E10 & r & th & F1 & F2 & F3 & F4 & F5).
  cbn in E5, E6, E7, E8, E10. injection E5 as <-. injection E6 as <-. injection E7 as <-. injection E8 as <-. injection E10 as <-. exists (r / (1 / 10 * 1)), (1 / 10 * 1). split; [exact Ha|]. split; [exact Hs|]. split; [exact HM|]. split; [exact Hm|]. split; [exact F1|].
  cbn in E1. injection E1 as E1 E1'. subst o1.
  assert (Eis : is = [1; -1/2; -1/2]).
  { destruct E2 as [L V]. destruct is as [|i1 [|i2 [|i3 [|i4 is]]]]; try discriminate L. destruct (V 0%nat "i_sa" eq_refl) as (v1 & A1 & B1). destruct (V 1%nat "i_sb" eq_refl) as (v2 & A2 & B2). destruct (V 2%nat "i_sc" eq_refl) as (v3 & A3 & B3).
    cbn in A1, A2, A3, B1, B2, B3. injection A1 as A1. injection A2 as A2. injection A3 as A3. injection B1 as B1. injection B2 as B2. injection B3 as B3. subst v1 v2 v3. rewrite B1, B2, B3. f_equal; [lra|]. f_equal; [lra|]. f_equal; lra. }
  subst is. rewrite t_23_val in E3. apply Ok_inj in E3. injection E3 as E3a E3b.
  destruct (E9 small_im eq_refl eq_refl eq_refl eq_refl) as (pr & (O1 & O2 & O3 & O4) & Eu). cbn [fl_psi] in Eu. unfold flux_update in Eu. rewrite O1, O2, O3 in Eu. unfold im_lr, small_im in Eu. cbn [im_lm im_lsigr im_rr fst snd m_info induction i_tau] in Eu.
  rewrite F5 in Eu. apply pair_equal_spec in Eu. destruct Eu as [Ea Eb]. assert (Hia : ia = 1) by lra. assert (Hib : ib = 0) by (rewrite <- E3b; lra). subst ia ib.
  assert (Ra : r * cos th = 1 / 10) by (rewrite Ea, Hia; field). assert (Rb : r * sin th = 0) by (rewrite Eb, Hib; field).
  assert (R2 : r * r = 1 / 100). { pose proof (sin2_cos2 th) as Hsc. unfold Rsqr in Hsc. replace (r * r) with (r * cos th * (r * cos th) + r * sin th * (r * sin th)) by (replace (r * r) with (r * r * (sin th * sin th + cos th * cos th)) by (rewrite Hsc; ring); ring). rewrite Ra, Rb. lra. }
  assert (Rr : r = 1 / 10) by nra. split; [|rewrite Rr; lra].
  unfold flux_machine in HM. destruct (flux_info ["i_sa"; "i_sb"; "i_sc"] (m_info (induction 1 o))) as [[pr' i']|] eqn:Ei; [|discriminate]. change (m_info (induction 1 [0; 1; -1/2; -1/2; 1])) with (m_info (induction 1 o)) in HM. rewrite Ei in HM. cbn [bind fst snd] in HM. apply Ok_inj in HM. subst M.
  cbn in Ei. apply Ok_inj in Ei. apply pair_equal_spec in Ei. destruct Ei as [_ <-]. reflexivity.
Qed.
Print Assumptions flux_in_announced_space_refuted.

(** ** C112 How the flux estimate forgets a wrong start *)
(** Distance of two estimates that get the same currents and speeds. *)
Definition inputs := list (R * R * R).
Definition estimate (p : flux_par) (tau : R) (l : inputs) (psi : R * R) : R * R := fold_left (fun ps u => flux_update p tau (fst (fst u)) (snd (fst u)) (snd u) ps) l psi.
Definition dist2 (x y : R * R) : R := (fst x - fst y) * (fst x - fst y) + (snd x - snd y) * (snd x - snd y).
Definition growth (p : flux_par) (tau w : R) : R := (1 - tau * (fp_rr p / fp_lr p)) * (1 - tau * (fp_rr p / fp_lr p)) + tau * w * (tau * w).
(** The squared distance is multiplied in every step by a factor that depends on the speed
    only, ... *)
Theorem flux_error_factor :
  forall p tau l x y, dist2 (estimate p tau l x) (estimate p tau l y) = fold_left (fun f u => f * growth p tau (snd u)) l (dist2 x y).
Proof.
  intros p tau l. induction l as [|[[ia ib] w] l IH]; intros x y; [reflexivity|]. unfold estimate in *. cbn [fold_left fst snd]. rewrite IH. f_equal. unfold dist2, flux_update, growth. destruct x as [xa xb], y as [ya yb]. cbn [fst snd].
  set (a := fp_rr p / fp_lr p). set (ca := ia * fp_rr p * fp_lm p / fp_lr p). set (cb := ib * fp_rr p * fp_lm p / fp_lr p). ring.
Qed.
Print Assumptions flux_error_factor.
(** ... which is below one exactly for slow enough rotors. *)
Theorem flux_error_shrinks_iff :
  forall p tau w, 0 < tau -> growth p tau w < 1 <-> tau * (fp_rr p / fp_lr p * (fp_rr p / fp_lr p) + w * w) < 2 * (fp_rr p / fp_lr p).
Proof. intros p tau w Ht. unfold growth. set (a := fp_rr p / fp_lr p).
  assert (E : (1 - tau * a) * (1 - tau * a) + tau * w * (tau * w) - 1 = tau * (tau * (a * a + w * w) - 2 * a)) by ring. split; intros H.
  - assert (H' : tau * (tau * (a * a + w * w) - 2 * a) < tau * 0) by lra. apply Rmult_lt_reg_l in H'; lra.
  - assert (H' : tau * (tau * (a * a + w * w) - 2 * a) < tau * 0) by (apply Rmult_lt_compat_l; lra). lra.
Qed.
Print Assumptions flux_error_shrinks_iff.
Lemma fold_growth p tau w ia ib k c : fold_left (fun f (u : R * R * R) => f * growth p tau (snd u)) (repeat (ia, ib, w) k) c = c * growth p tau w ^ k.
Proof. revert c. induction k as [|k IH]; intros c; cbn [repeat fold_left pow snd]; [ring|]. rewrite IH. ring. Qed.
(** At constant speed a wrong start vanishes or grows without bound. *)
Theorem flux_error_constant_speed :
  forall p tau w ia ib x y, x <> y ->
  (growth p tau w < 1 -> forall eps, 0 < eps -> exists N, forall k, (N <= k)%nat -> dist2 (estimate p tau (repeat (ia, ib, w) k) x) (estimate p tau (repeat (ia, ib, w) k) y) < eps) /\
  (growth p tau w > 1 -> forall B, exists N, forall k, (N <= k)%nat -> dist2 (estimate p tau (repeat (ia, ib, w) k) x) (estimate p tau (repeat (ia, ib, w) k) y) > B).
Proof.
  intros p tau w ia ib x y Hxy. assert (Hd : 0 < dist2 x y).
  { unfold dist2. destruct x as [xa xb], y as [ya yb]. cbn [fst snd]. destruct (Req_dec xa ya) as [Ea|Ea]; [destruct (Req_dec xb yb) as [Eb|Eb]; [congruence|]|].
    - assert (Hne : xb - yb <> 0) by lra. pose proof (Rlt_0_sqr _ Hne) as Q1. pose proof (Rle_0_sqr (xa - ya)) as Q2. unfold Rsqr in Q1, Q2. lra.
    - assert (Hne : xa - ya <> 0) by lra. pose proof (Rlt_0_sqr _ Hne) as Q1. pose proof (Rle_0_sqr (xb - yb)) as Q2. unfold Rsqr in Q1, Q2. lra. }
  assert (Hg : 0 <= growth p tau w) by (unfold growth; apply Rplus_le_le_0_compat; apply Rle_0_sqr). split.
  - intros H1 eps Heps. destruct (pow_lt_1_zero (growth p tau w) ltac:(rewrite Rabs_right by lra; exact H1) (eps / dist2 x y)) as [N HN]; [apply Rdiv_lt_0_compat; assumption|]. exists N. intros k Hk. rewrite flux_error_factor, fold_growth.
    specialize (HN k Hk). rewrite Rabs_right in HN by (apply Rle_ge, pow_le, Hg). apply (Rmult_lt_compat_l (dist2 x y)) in HN; [|exact Hd]. replace (dist2 x y * (eps / dist2 x y)) with eps in HN by (field; lra). exact HN.
  - intros H1 B. destruct (Pow_x_infinity (growth p tau w) ltac:(rewrite Rabs_right by lra; exact H1) (Rmax B 0 / dist2 x y + 1)) as [N HN]. exists N. intros k Hk. rewrite flux_error_factor, fold_growth.
    specialize (HN k Hk). rewrite Rabs_right in HN by (apply Rle_ge, pow_le, Hg). apply Rge_le in HN. apply (Rmult_le_compat_l (dist2 x y)) in HN; [|lra]. replace (dist2 x y * (Rmax B 0 / dist2 x y + 1)) with (Rmax B 0 + dist2 x y) in HN by (field; lra). pose proof (Rmax_l B 0) as HB. lra.
Qed.
Print Assumptions flux_error_constant_speed.
Example flux_error_example : growth (small_flux []) (1 / 10) (1 / 2) < 1 /\ growth (small_flux []) (1 / 10) 20 > 1.
Proof. unfold growth, small_flux. cbn. split; lra. Qed.
(** Default squirrel cage motor at its nominal speed with the default period 1e-4 of the
    continuously controlled environments: errors grow. *)
Definition scim_flux (idx : list nat) : flux_par := {| fp_lm := 14375 / 100000; fp_lr := 14375 / 100000 + 587 / 100000; fp_rr := 1355 / 1000; fp_p := 2; fp_idx := idx; fp_omega := 0; fp_limits := [] |}.
Theorem flux_observer_default_converges_refuted : growth (scim_flux []) (1 / 10000) (3000 * PI / 30 * 2) > 1.
Proof.
  unfold growth, scim_flux. cbn [fp_rr fp_lr]. pose proof PI2_3_2 as Hpi.
  assert (Ha : 1355 / 1000 / (14375 / 100000 + 587 / 100000) < 10). { apply (Rmult_lt_reg_r (14375 / 100000 + 587 / 100000)); [lra|]. unfold Rdiv at 1. rewrite Rmult_assoc, Rinv_l by lra. lra. }
  assert (Ha' : 0 < 1355 / 1000 / (14375 / 100000 + 587 / 100000)) by (apply Rdiv_lt_0_compat; lra).
  set (a := 1355 / 1000 / (14375 / 100000 + 587 / 100000)) in *. assert (Hw : 1 / 10000 * (3000 * PI / 30 * 2) > 6 / 100) by lra. set (z := 1 / 10000 * (3000 * PI / 30 * 2)) in *. nra.
Qed.
Print Assumptions flux_observer_default_converges_refuted.


(** ** C63 State observer *)
Lemma str_index_app_in k l r : In k l -> str_index k (l ++ r) = str_index k l.
Proof. induction l as [|x l IH]; intros H; [destruct H|]. cbn. destruct (String.eqb_spec x k) as [->|Hx]; [reflexivity|]. rewrite IH; [reflexivity|]. destruct H as [H|H]; [congruence|exact H]. Qed.
Lemma str_index_app_out k l r : ~ In k l -> str_index k (l ++ r) = do i <- str_index k r; Ok (length l + i)%nat.
Proof.
  induction l as [|x l IH]; intros H; cbn [app str_index length Nat.add]; [destruct (str_index k r); reflexivity|]. destruct (String.eqb_spec x k) as [->|Hx]; [exfalso; apply H; now left|]. rewrite IH by (intros Hi; apply H; now right). destruct (str_index k r); reflexivity.
Qed.
(** Without filter the observer returns the value of the named state. *)
Theorem observer_unfiltered :
  forall e names st k, oe_filter e = seq 0 (length (oe_names e)) -> fused_names e = Ok names -> oe_state e = Some st -> length st = length (oe_names e) -> In k (oe_names e) ->
  exists v, pull names e k = Ok (k, v) /\ shown (oe_names e) st k = Some v.
Proof.
  intros e names st k Hf Hn Hst Hl Hk. unfold fused_names in Hn. rewrite Hf, Env_Proofs.select_seq in Hn. cbn [bind] in Hn. apply Ok_inj in Hn. subst names. unfold pull, shown. rewrite Hst.
  rewrite (proj2 (str_in_true k _)) by (apply in_or_app; now left). rewrite str_index_app_in by exact Hk. destruct (str_index_in _ _ Hk) as [i Ei]. rewrite Ei. cbn [bind].
  assert (Hi : (i < length st)%nat) by (rewrite Hl; apply nth_error_Some; rewrite (str_index_ok _ _ _ Ei); discriminate). unfold item. destruct (nth_error st i) as [v|] eqn:Ev; [|apply nth_error_None in Ev; lia]. exists v. auto.
Qed.
Print Assumptions observer_unfiltered.
Example observer_unfiltered_example : let e := {| oe_names := ["omega"; "i"]; oe_filter := [0; 1]%nat; oe_refs := ["i"]; oe_state := Some [1/2; 1/3] |} in
  oe_filter e = seq 0 (length (oe_names e)) /\ fused_names e = Ok ["omega"; "i"; "i_ref"] /\ pull ["omega"; "i"; "i_ref"] e "i" = Ok ("i", 1/3).
Proof. repeat split. Qed.

(** With a filter it looks up the position among the filtered names but reads the unfiltered
    state: for the j-th name of the filter it returns entry j of the whole state. *)
Theorem observer_filtered :
  forall e names st j i k, fused_names e = Ok names -> NoDup names -> oe_state e = Some st -> nth_error (oe_filter e) j = Some i -> nth_error (oe_names e) i = Some k ->
  pull names e k = match nth_error st j with Some v => Ok (k, v) | None => Err IndexError end.
Proof.
  intros e names st j i k Hn Hnd Hst Hj Hi. unfold fused_names in Hn. destruct (select (oe_filter e) (oe_names e)) as [nm|] eqn:Es; [|discriminate]. cbn [bind] in Hn. apply Ok_inj in Hn. destruct (select_inv _ _ _ Es) as [L G]. pose proof (G j i Hj) as Hk. rewrite Hi in Hk.
  assert (Hjn : nth_error names j = Some k) by (subst names; rewrite nth_error_app1; [exact Hk|apply nth_error_Some; congruence]).
  unfold pull. rewrite Hst, (proj2 (str_in_true k names)) by (eapply nth_error_In; eauto). rewrite (str_index_nodup _ _ _ Hnd Hjn). cbn [bind]. unfold item. destruct (nth_error st j); reflexivity.
Qed.
Print Assumptions observer_filtered.
Theorem observer_filtered_value_refuted :
  exists e names st k v v', fused_names e = Ok names /\ NoDup names /\ oe_state e = Some st /\ length st = length (oe_names e) /\ pull names e k = Ok (k, v) /\ shown (oe_names e) st k = Some v' /\ v <> v'.
Proof.
  exists {| oe_names := ["omega"; "i"]; oe_filter := [1]%nat; oe_refs := []; oe_state := Some [1/2; 1/3] |}, ["i"], [1/2; 1/3], "i", (1/2), (1/3). split; [reflexivity|]. split; [nodup|]. do 4 (split; [reflexivity|]). lra.
Qed.
Print Assumptions observer_filtered_value_refuted.

(** The reference names it announces cannot be read without filter, and nothing can be read
    before the first step. *)
Theorem observer_references_refuted :
  (forall e names st r, oe_filter e = seq 0 (length (oe_names e)) -> fused_names e = Ok names -> oe_state e = Some st -> length st = length (oe_names e) -> In r (oe_refs e) -> ~ In (String.append r "_ref") (oe_names e) ->
     In (String.append r "_ref") names /\ pull names e (String.append r "_ref") = Err IndexError) /\
  (forall e names k, oe_state e = None -> In k names -> pull names e k = Err TypeError) /\
  (forall e names k, ~ In k names -> pull names e k = Err ValueError).
Proof.
  split; [|split].
  - intros e names st r Hf Hn Hst Hl Hr Hk. unfold fused_names in Hn. rewrite Hf, Env_Proofs.select_seq in Hn. cbn [bind] in Hn. apply Ok_inj in Hn. assert (Hi : In (String.append r "_ref") names) by (subst names; apply in_or_app; right; apply (in_map (fun r => String.append r "_ref")); exact Hr). split; [exact Hi|].
    unfold pull. rewrite Hst, (proj2 (str_in_true _ _) Hi). subst names. rewrite str_index_app_out by exact Hk. destruct (str_index_in (String.append r "_ref") (map (fun r0 => String.append r0 "_ref") (oe_refs e))) as [i ->]; [apply (in_map (fun r => String.append r "_ref")); exact Hr|]. cbn [bind]. unfold item.
    replace (nth_error st (length (oe_names e) + i)) with (@None R); [reflexivity|]. symmetry. apply nth_error_None. lia.
  - intros e names k Hst Hk. unfold pull. rewrite (proj2 (str_in_true _ _) Hk), Hst. destruct (str_index_in _ _ Hk) as [i ->]. reflexivity.
  - intros e names k Hk. unfold pull. rewrite (proj2 (str_in_false _ _) Hk). reflexivity.
Qed.
Print Assumptions observer_references_refuted.
