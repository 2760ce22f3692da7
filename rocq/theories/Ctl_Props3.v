(** Properties of the controllers of gem_controllers: C72, switching controllers. *)
From Verif Require Import PyBaseFacts PyDictFacts Transform_Model Transform_Proofs Conv_Model Wrap_Model Ctl_Model Ctl_Model2 Ctl_Spec Ctl_Proofs Ctl_Proofs2 Ctl_Props Ctl_Props2.
Local Open Scope string_scope. Local Open Scope list_scope. Local Open Scope R_scope.

Lemma np_cmp_inv f a b n : length a = n -> length b = n -> exists c, np_cmp f a b = Ok c /\ length c = n /\ forall k, (k < n)%nat -> nth k c false = f (comp k a) (comp k b).
Proof.
  intros La Lb. exists (map2 f a b). unfold np_cmp. rewrite La, Lb, Nat.eqb_refl. split; [reflexivity|]. split; [rewrite map2_len by congruence; exact La|]. clear - La Lb. revert b n La Lb. induction a as [|x a IH]; intros b n La Lb k Hk; destruct b as [|y b]; cbn in La, Lb; try lia.
  destruct k as [|k]; [reflexivity|]. cbn. apply (IH b (length a)); lia.
Qed.
Lemma np_select_eq {A} (c1 c2 : list bool) (v1 v2 d : list A) n : length c1 = n -> length c2 = n -> length v1 = n -> length v2 = n -> length d = n ->
  exists r, np_select c1 c2 v1 v2 d = Ok r /\ length r = n /\ forall k x, (k < n)%nat -> nth k r x = if nth k c1 false then nth k v1 x else if nth k c2 false then nth k v2 x else nth k d x.
Proof.
  intros L1 L2 L3 L4 L5. unfold np_select. cbn [fold_right]. rewrite L1, L2, L3, L4, L5. replace (Nat.max n (Nat.max n (Nat.max n (Nat.max n (Nat.max n 0))))) with n by lia. unfold np_bc. rewrite L1, L2, L3, L4, L5, Nat.eqb_refl. cbn [bind].
  eexists. split; [reflexivity|]. split; [rewrite map2_len; rewrite ?combine_length; lia|]. intros k x Hk. revert c2 v1 v2 d n k L1 L2 L3 L4 L5 Hk. induction c1 as [|b1 c1 IH]; intros c2 v1 v2 d n k L1 L2 L3 L4 L5 Hk; destruct c2, v1, v2, d; cbn in L1, L2, L3, L4, L5; try lia.
  destruct k as [|k]; [reflexivity|]. cbn. apply (IH _ _ _ _ (length c1)); lia.
Qed.

(** ** C72 Three point controller *)
(** Above the hysteresis band the low action, below it the high action, within it the idle action. *)
Theorem three_point_selection :
  forall n b idx s r x, b_kind b = K3 -> b_idx b = Some idx -> select idx s = Ok x -> length idx = n -> length r = n -> length (b_hyst b) = n -> length (b_low b) = n -> length (b_high b) = n -> length (b_idle b) = n -> (forall k, (k < n)%nat -> 0 <= comp k (b_hyst b)) ->
  exists u, base_call b s r = (b, Ok u) /\ length u = n /\ forall k, (k < n)%nat -> let dev := comp (nth k idx O) s - comp k r in
    (comp k (b_hyst b) < dev -> comp k u = comp k (b_low b)) /\ (dev < - comp k (b_hyst b) -> comp k u = comp k (b_high b)) /\ (Rabs dev <= comp k (b_hyst b) -> comp k u = comp k (b_idle b)).
Proof.
  intros n b idx s r x HK Hi Hx Li Lr Lh Ll Lg Le Hpos. unfold base_call. rewrite HK. unfold three_point, base_states. rewrite Hi, Hx. cbn [bind]. pose proof (select_length _ _ _ Hx) as Lx. rewrite Li in Lx.
  destruct (np_bin_ok Rplus x (b_hyst b) n Lx Lh) as (sh & -> & L1 & C1). cbn [bind]. destruct (np_cmp_inv rlt sh r n L1 Lr) as (hi & -> & L2 & C2). cbn [bind]. destruct (np_bin_ok Rminus x (b_hyst b) n Lx Lh) as (sl & -> & L3 & C3). cbn [bind].
  destruct (np_cmp_inv (fun a c => rlt c a) sl r n L3 Lr) as (lo & -> & L4 & C4). cbn [bind]. destruct (np_select_eq lo hi (b_low b) (b_high b) (b_idle b) n L4 L2 Ll Lg Le) as (u & Eu & Lu & Cu). exists u. split; [rewrite Eu; reflexivity|]. split; [exact Lu|]. intros k Hk.
  assert (Hu : comp k u = if nth k lo false then comp k (b_low b) else if nth k hi false then comp k (b_high b) else comp k (b_idle b)) by (unfold comp; apply Cu; exact Hk). rewrite Hu, C4, C2, C3, C1 by exact Hk. rewrite (select_comp _ _ _ k Hx) by lia. specialize (Hpos k Hk). set (y := comp (nth k idx 0%nat) s).
  split; [|split].
  - intros H. destruct (rltP (comp k r) (y - comp k (b_hyst b))); [reflexivity|lra].
  - intros H. destruct (rltP (comp k r) (y - comp k (b_hyst b))); [lra|]. destruct (rltP (y + comp k (b_hyst b)) (comp k r)); [reflexivity|lra].
  - intros H. match type of H with Rabs ?d <= _ => pose proof (Rle_abs d); pose proof (Rle_abs (- d)) as Hn; rewrite Rabs_Ropp in Hn end. destruct (rltP (comp k r) (y - comp k (b_hyst b))); [lra|]. destruct (rltP (y + comp k (b_hyst b)) (comp k r)); [lra|reflexivity].
Qed.
Print Assumptions three_point_selection.
(** The band that tuning chooses for currents is one percent of the range of the voltages. *)
Theorem three_point_band_from_voltages :
  forall e id m b us ui cs ci, three_tune (base_new K3 CC) e id = Ok b -> motor_type id = Ok m -> dict_item m voltages = Ok us -> dict_item m currents = Ok cs -> indices e us = Ok ui -> indices e cs = Ok ci ->
  b_idx b = Some ci /\ forall k, (k < axes m)%nat -> let i := nth k ui O in
    comp k (b_hyst b) = 1 / 100 * ((comp i (ce_high e) - comp i (ce_low e)) * comp i (ce_limits e)) /\ comp k (b_idle b) = 0 /\
    comp k (b_low b) = comp i (ce_low e) * comp i (ce_limits e) /\ comp k (b_high b) = comp i (ce_high e) * comp i (ce_limits e).
Proof.
  intros e id m b us ui cs ci H Hm Hus Hcs Hui Hci. unfold three_tune in H. cbn [base_new b_task] in H. rewrite Hm in H. cbn [bind] in H. rewrite Hus in H. cbn [bind] in H. rewrite Hcs in H. cbn [bind] in H. rewrite Hui in H. cbn [bind] in H. rewrite Hci in H. cbn [bind] in H.
  apply bind_ok in H. destruct H as (r & Er & H). apply bind_ok in H. destruct H as (d & Ed & H). injection H as <-. split; [reflexivity|]. intros k Hk i. cbn [three_set b_hyst b_idle b_low b_high]. pose proof (indices_length _ _ _ Hui) as Lu. rewrite (voltages_axes _ _ Hus) in Lu.
  destruct (ranges_inv _ _ _ _ _ Lu Er) as (l & lo & hi & E1 & E2 & E3 & L1 & L2 & C). destruct (np_bin_inv _ _ _ _ _ Ed L2 L1) as [L3 C3]. rewrite (comp_map (fun x => 1 / 100 * x)) by lia. rewrite C3 by exact Hk. destruct (C k Hk) as [-> ->].
  rewrite (select_comp _ _ _ k E1), (select_comp _ _ _ k E2), (select_comp _ _ _ k E3) by lia. fold i. split; [ring|]. split; [apply nth_repeat|]. split; ring.
Qed.
Print Assumptions three_point_band_from_voltages.
Example three_point_example : exists b, three_tune (base_new K3 CC) dc_finite "Finite-CC-PermExDc-v0" = Ok b /\ exists u, base_call b [0; 0; 50; 0; 60] [40] = (b, Ok u) /\ comp 0 u = -60.
Proof.
  eexists. split; [reflexivity|]. match goal with |- exists u, base_call ?b _ _ = _ /\ _ => destruct (three_point_selection 1 b [2%nat] [0; 0; 50; 0; 60] [40] [50] eq_refl eq_refl eq_refl eq_refl eq_refl eq_refl eq_refl eq_refl eq_refl) as (u & E & _ & C) end.
  - intros k Hk. destruct k as [|k]; [cbn; lra|lia].
  - exists u. split; [exact E|]. destruct (C O ltac:(lia)) as [C1 _]. rewrite C1; [cbn; lra|cbn; lra].
Qed.

(** ** C72 Discrete output stage *)
Theorem discrete_selection :
  forall n d r, length (do_lo d) = n -> length (do_hi d) = n -> length (do_low d) = n -> length (do_high d) = n -> length (do_idle d) = n -> length r = n -> (forall k, (k < n)%nat -> comp k (do_lo d) < comp k (do_hi d)) ->
  exists a, to_action d r = Ok a /\ length a = n /\ forall k, (k < n)%nat ->
    (comp k r <= comp k (do_lo d) -> nth k a 0%Z = nth k (do_low d) 0%Z) /\ (comp k (do_hi d) <= comp k r -> nth k a 0%Z = nth k (do_high d) 0%Z) /\ (comp k (do_lo d) < comp k r < comp k (do_hi d) -> nth k a 0%Z = nth k (do_idle d) 0%Z).
Proof.
  intros n d r L1 L2 L3 L4 L5 Lr Hlt. unfold to_action. destruct (np_cmp_inv rle r (do_lo d) n Lr L1) as (lo & -> & Llo & Clo). cbn [bind]. destruct (np_cmp_inv (fun x y => rle y x) r (do_hi d) n Lr L2) as (hi & -> & Lhi & Chi). cbn [bind].
  destruct (np_select_eq lo hi (do_low d) (do_high d) (do_idle d) n Llo Lhi L3 L4 L5) as (a & Ea & La & Ca). exists a. split; [exact Ea|]. split; [exact La|]. intros k Hk. rewrite (Ca k 0%Z Hk), Clo, Chi by exact Hk. specialize (Hlt k Hk).
  split; [|split]; intros H; destruct (rleP (comp k r) (comp k (do_lo d))); try reflexivity; try lra; destruct (rleP (comp k (do_hi d)) (comp k r)); try reflexivity; lra.
Qed.
Print Assumptions discrete_selection.
Lemma Forall2_nth_error_intro {A B} (P : A -> B -> Prop) a : forall b, length a = length b -> (forall k x y, nth_error a k = Some x -> nth_error b k = Some y -> P x y) -> Forall2 P a b.
Proof.
  induction a as [|x a IH]; intros b L H; destruct b as [|y b]; try discriminate L; constructor; [apply (H O); reflexivity|]. apply IH; [injection L as L; exact L|]. intros k u v Hu Hv. apply (H (Datatypes.S k)); assumption.
Qed.
(** A tuned stage: thresholds at 33 percent of the voltage range; every action of a converter
    with at least two switching states is valid, for one converter and for several. *)
Definition switching (e : cenv) : list Z := match ce_act e with SDisc n => [n] | SMulti l => l | _ => [] end.
Lemma get_actions_valid n : (2 <= n)%Z -> (0 <= fst (fst (get_actions n)) < n)%Z /\ (0 <= snd (fst (get_actions n)) < n)%Z /\ (0 <= snd (get_actions n) < n)%Z.
Proof. intros H. unfold get_actions. cbn [fst snd]. destruct (Z.eqb_spec n 2); lia. Qed.
Theorem discrete_stage_valid :
  forall e id m us ui d r, disc_tune e id = Ok d -> unpack_motor id = Ok m -> get_output_voltages m = Ok us -> indices e us = Ok ui -> length (switching e) = length us -> ce_b6 e = false -> Forall (fun n => (2 <= n)%Z) (switching e) -> us <> [] -> length r = length us ->
  (forall i, In i ui -> 0 < (comp i (ce_high e) - comp i (ce_low e)) * comp i (ce_limits e)) ->
  exists a, disc_call d r = Ok a /\ action_valid (ce_act e) a /\
  forall k, (k < length us)%nat -> let i := nth k ui O in let range := (comp i (ce_high e) - comp i (ce_low e)) * comp i (ce_limits e) in
    match a with ADisc x => k = O -> x = (if rle (comp 0 r) (- (33 / 100) * range) then (if Z.eqb (nth 0 (switching e) 0%Z) 2 then 0 else 2) else if rle (33 / 100 * range) (comp 0 r) then 1 else 0)%Z
    | AMulti l => nth k l 0%Z = (if rle (comp k r) (- (33 / 100) * range) then (if Z.eqb (nth k (switching e) 0%Z) 2 then 0 else 2) else if rle (33 / 100 * range) (comp k r) then 1 else 0)%Z
    | _ => False end.
Proof.
  intros e id m us ui d r H Hm Hus Hui Hsw Hb6 Hge Hne Lr Hrange. unfold disc_tune in H. rewrite Hm in H. cbn [bind] in H. rewrite Hus in H. cbn [bind] in H. rewrite Hui in H. cbn [bind] in H. apply bind_ok in H. destruct H as (rg & Erg & H). apply bind_ok in H. destruct H as (df & Edf & H).
  pose proof (indices_length _ _ _ Hui) as Lu. destruct (ranges_inv _ _ _ _ _ Lu Erg) as (l & lo & hi & E1 & E2 & E3 & L1 & L2 & C). destruct (np_bin_inv _ _ _ _ _ Edf L2 L1) as [L3 C3].
  assert (Hdf : forall k, (k < length us)%nat -> comp k df = (comp (nth k ui O) (ce_high e) - comp (nth k ui O) (ce_low e)) * comp (nth k ui O) (ce_limits e) /\ 0 < comp k df).
  { intros k Hk. assert (E : comp k df = (comp (nth k ui O) (ce_high e) - comp (nth k ui O) (ce_low e)) * comp (nth k ui O) (ce_limits e)). { rewrite C3 by exact Hk. destruct (C k Hk) as [-> ->]. rewrite (select_comp _ _ _ k E1), (select_comp _ _ _ k E2), (select_comp _ _ _ k E3) by lia. ring. } split; [exact E|]. rewrite E. apply Hrange. apply nth_In. lia. }
  set (acts := map get_actions (switching e)). set (n := length us) in *.
  assert (HT : forall d', do_lo d' = map (fun x => - (33 / 100) * x) df -> do_hi d' = map (fun x => 33 / 100 * x) df -> do_low d' = map (fun n => fst (fst (get_actions n))) (switching e) -> do_idle d' = map (fun n => snd (fst (get_actions n))) (switching e) -> do_high d' = map (fun n => snd (get_actions n)) (switching e) ->
    exists a, to_action d' r = Ok a /\ length a = n /\ Forall2 (fun x n => (0 <= x < n)%Z) a (switching e) /\ forall k, (k < n)%nat -> nth k a 0%Z = (if rle (comp k r) (- (33 / 100) * comp k df) then (if Z.eqb (nth k (switching e) 0%Z) 2 then 0 else 2) else if rle (33 / 100 * comp k df) (comp k r) then 1 else 0)%Z).
  { intros d' D1 D2 D3 D4 D5. destruct (discrete_selection n d' r) as (a & Ea & La & Ca); try (rewrite ?D1, ?D2, ?D3, ?D4, ?D5, map_length; assumption); [exact Lr| |].
    { intros k Hk. rewrite D1, D2. rewrite (comp_map (fun x => - (33 / 100) * x)), (comp_map (fun x => 33 / 100 * x)) by lia. destruct (Hdf k Hk) as [_ Hp]. lra. }
    exists a. split; [exact Ea|]. split; [exact La|].
    assert (Hv : forall k, (k < n)%nat -> nth k a 0%Z = (if rle (comp k r) (- (33 / 100) * comp k df) then (if Z.eqb (nth k (switching e) 0%Z) 2 then 0 else 2) else if rle (33 / 100 * comp k df) (comp k r) then 1 else 0)%Z).
    { intros k Hk. destruct (Ca k Hk) as (A1 & A2 & A3). rewrite D1, D2 in *. rewrite (comp_map (fun x => - (33 / 100) * x)), (comp_map (fun x => 33 / 100 * x)) in * by lia.
      assert (G : forall (f : Z -> Z), nth k (map f (switching e)) 0%Z = f (nth k (switching e) 0%Z)). { intros f. rewrite (nth_indep _ 0%Z (f 0%Z)) by (rewrite map_length; lia). apply map_nth. }
      destruct (rleP (comp k r) (- (33 / 100) * comp k df)) as [H1|H1]; [rewrite (A1 H1), D3, G; reflexivity|]. destruct (rleP (33 / 100 * comp k df) (comp k r)) as [H2|H2]; [rewrite (A2 H2), D5, G; reflexivity|]. rewrite A3 by lra. rewrite D4, G. reflexivity. }
    split; [|exact Hv]. apply Forall2_nth_error_intro; [congruence|]. intros k x y Hx Hy. assert (Hk : (k < n)%nat) by (rewrite <- La; apply nth_error_Some; congruence). apply nth_error_nth with (d := 0%Z) in Hx, Hy. specialize (Hv k Hk). rewrite Hx, Hy in Hv.
    rewrite Forall_forall in Hge. assert (Hy2 : (2 <= y)%Z). { apply Hge. rewrite <- Hy. apply nth_In. lia. } rewrite Hv. repeat match goal with |- context [if ?c then _ else _] => destruct c eqn:? end; try lia. }
  unfold disc_call. unfold switching in *. destruct (ce_act e) as [q|nv| |] eqn:Eact; cbn [length] in Hsw.
  - rewrite Hb6 in H. cbn [get_actions] in H. injection H as <-. edestruct HT as (a & -> & La & Va & Ca); [reflexivity|reflexivity|reflexivity|reflexivity|reflexivity|]. cbn [bind do_kind]. destruct a as [|x [|]]; cbn in La; try lia. exists (ADisc x). split; [reflexivity|]. split; [inversion Va; subst; cbn; assumption|].
    intros k Hk E. specialize (Ca O ltac:(lia)). cbn [nth] in Ca. rewrite Ca. subst k. destruct (Hdf O ltac:(lia)) as [E0 _]. rewrite E0. reflexivity.
  - injection H as <-. edestruct HT as (a & -> & La & Va & Ca); [reflexivity|reflexivity|reflexivity|reflexivity|reflexivity|]. cbn [bind do_kind]. exists (AMulti a). split; [reflexivity|]. split; [exact Va|]. intros k Hk. rewrite (Ca k Hk). destruct (Hdf k Hk) as [E0 _]. rewrite E0. reflexivity.
  - rewrite Hb6 in H. discriminate.
  - rewrite Hb6 in H. discriminate.
Qed.
Print Assumptions discrete_stage_valid.
Example discrete_stage_example : exists d, disc_tune dc_finite "Finite-CC-PermExDc-v0" = Ok d /\ unpack_motor "Finite-CC-PermExDc-v0" = Ok "PermExDc" /\ get_output_voltages "PermExDc" = Ok ["u"] /\ indices dc_finite ["u"] = Ok [3%nat] /\ switching dc_finite = [4%Z] /\
  (forall i, In i [3%nat] -> 0 < (comp i (ce_high dc_finite) - comp i (ce_low dc_finite)) * comp i (ce_limits dc_finite)).
Proof. eexists. split; [reflexivity|]. split; [reflexivity|]. split; [reflexivity|]. split; [reflexivity|]. split; [reflexivity|]. intros i [<-|[]]. cbn. lra. Qed.

(** Finite three phase bridges: the stage can be tuned, but every call raises. *)
Theorem b6_discrete_control_refuted :
  forall O (op : ops O) k d h ps pr, ad_out k = ODisc d -> do_kind d = DB6 -> forall a, snd (adapter_control op k h ps pr) <> Ok a.
Proof.
  intros O op k d h ps pr Ho Hd a H. unfold adapter_control in H. destruct (np_copy h ps) as [h1 s']. destruct (np_copy h1 pr) as [h2 r']. destruct (input_call (ad_slim k) (ad_rlim k) h2 s' r') as [h3 dr]. destruct dr as [ref|]; [|discriminate]. destruct (inner_control op (ad_in k) (load h3 s') ref) as [c u0]. cbn [snd] in H.
  apply bind_ok in H. destruct H as (u & _ & H). rewrite Ho in H. cbn [out_call] in H. unfold disc_call in H. apply bind_ok in H. destruct H as (x & _ & H). rewrite Hd in H. discriminate.
Qed.
Print Assumptions b6_discrete_control_refuted.
Definition pmsm_finite : cenv :=
  {| ce_names := ce_names pmsm_env; ce_limits := ce_limits pmsm_env; ce_low := ce_low pmsm_env; ce_high := ce_high pmsm_env; ce_refs := ce_refs pmsm_env; ce_tau := ce_tau pmsm_env; ce_par := ce_par pmsm_env; ce_j := ce_j pmsm_env; ce_act := SDisc 8; ce_b6 := true; ce_dead := Some false |}.
Example b6_discrete_control_example : exists ad d, gem_make the_ops unit_ops pmsm_finite "Finite-CC-PMSM-v0" true (1 / 10) "PI" "PI" 4 = Ok ad /\ ad_out ad = ODisc d /\ do_kind d = DB6.
Proof. do 2 eexists. split; [reflexivity|]. split; reflexivity. Qed.

(** A finite EESM has two converters (MultiDiscrete) but four output voltages; every call raises. *)
Theorem eesm_discrete_control_refuted :
  forall e d r nvec, disc_tune e "Finite-CC-EESM-v0" = Ok d -> ce_act e = SMulti nvec -> length nvec = 2%nat -> length r = 4%nat -> forall a, disc_call d r <> Ok a.
Proof.
  intros e d r nvec H Ha Hn Lr a Hd. unfold disc_tune in H. cbn [unpack_motor] in H. apply bind_ok in H. destruct H as (m & Em & H). injection Em as <-. apply bind_ok in H. destruct H as (us & Eu & H). injection Eu as <-. apply bind_ok in H. destruct H as (ui & Eui & H). apply bind_ok in H. destruct H as (rg & Erg & H). apply bind_ok in H. destruct H as (df & Edf & H). rewrite Ha in H. injection H as <-.
  pose proof (indices_length _ _ _ Eui) as Lu. destruct (ranges_inv _ _ _ _ _ Lu Erg) as (l & lo & hi & _ & _ & _ & L1 & L2 & _). destruct (np_bin_inv _ _ _ _ _ Edf L2 L1) as [L3 _]. cbn [length] in L3.
  unfold disc_call in Hd. apply bind_ok in Hd. destruct Hd as (x & Hx & _). unfold to_action in Hx. cbn [do_lo do_hi do_low do_high do_idle] in Hx.
  destruct (np_cmp_inv rle r (map (fun x => - (33 / 100) * x) df) 4 Lr ltac:(rewrite map_length; exact L3)) as (c1 & E1 & M1 & _). rewrite E1 in Hx. cbn [bind] in Hx. destruct (np_cmp_inv (fun x y => rle y x) r (map (fun x => 33 / 100 * x) df) 4 Lr ltac:(rewrite map_length; exact L3)) as (c2 & E2 & M2 & _). rewrite E2 in Hx. cbn [bind] in Hx.
  destruct nvec as [|n0 [|n1 [|]]]; try discriminate Hn. unfold np_select in Hx. cbn [map length fold_right] in Hx. rewrite M1, M2 in Hx. cbn [Nat.max] in Hx. unfold np_bc at 1 2 in Hx. rewrite M1, M2 in Hx. cbn [Nat.eqb bind] in Hx. discriminate Hx.
Qed.
Print Assumptions eesm_discrete_control_refuted.
