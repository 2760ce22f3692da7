(** Proofs about the automatic controller design for DC motors: the constructors. *)
From Verif Require Import PyBase PyBaseFacts PyDict PyDictFacts Transform_Model PhysSys_Model Preset_Model Preset_Props Full_Spec
  Ex_Model Ex_Model2 Ex_Spec Ex_Proofs Ex_Proofs2 Ex_Proofs3 Ex_Proofs5 Design_Model Design_Spec Design_Proofs.
From Coq Require Import Lia Lra.
Local Open Scope string_scope.
Local Open Scope list_scope.
Local Open Scope R_scope.

(** ** What a DC environment looks like *)
Definition count (m : motor_class) : nat := match m with PermExDc | SeriesDc => 5 | _ => 7 end.
Definition arm (m : motor_class) : nat := 2.
Definition fld (m : motor_class) : nat := match m with PermExDc | SeriesDc => 2 | _ => 3 end.
Definition vlt (m : motor_class) : nat := match m with PermExDc | SeriesDc => 3 | ShuntDc => 4 | _ => 5 end.
Definition bounded_list (nom lim : list R) (n : nat) : Prop := length nom = n /\ length lim = n /\ forall i a b, item nom i = Ok a -> item lim i = Ok b -> 0 < a <= b.
Lemma forall2_bounded nom lim : Forall2 (fun n l => 0 < n <= l) nom lim -> bounded_list nom lim (length lim).
Proof.
  intros F. split; [|split; [reflexivity|]].
  - induction F; cbn; congruence.
  - induction F as [|x y l l' H F IH]; intros [|i] a b; unfold item in *; cbn; try discriminate.
    + intros [= <-] [= <-]. exact H.
    + apply (IH i a b).
Qed.
Record shape (t : task) (f : bool) (m : motor_class) (d : dc) : Prop := {
  sh_names : en_names (dc_env d) = motor_states m ++ match m with ShuntDc => ["i_sum"] | _ => [] end;
  sh_low : length (en_low (dc_env d)) = length (en_names (dc_env d)); sh_high : length (en_high (dc_env d)) = length (en_names (dc_env d));
  sh_bounds : bounded_list (en_nominal (dc_env d)) (en_limits (dc_env d)) (length (en_names (dc_env d)));
  sh_space : en_space (dc_env d) = if f then (match m with ExtExDc => SMulti [4; 4]%Z | _ => SDisc 4 end) else (match m with ExtExDc => SBox [-1; -1] [1; 1] | _ => SBox [-1] [1] end);
  sh_arm : at_ (en_cur (dc_env d)) 0 = Ok (arm m); sh_fld : last_of (en_cur (dc_env d)) = Ok (fld m);
  sh_v0 : at_ (en_volt (dc_env d)) 0 = Ok (match m with ExtExDc => 4%nat | _ => vlt m end); sh_v : last_of (en_volt (dc_env d)) = Ok (vlt m);
  sh_mp : parameters m (en_mp (dc_env d));
  sh_extex : en_extex (dc_env d) = match m with ExtExDc => true | _ => false end;
  sh_series : dc_series d = match m with SeriesDc => true | _ => false end;
  sh_wrapped : dc_wrapped d = match m with ShuntDc => true | _ => false end;
  sh_refs : dc_refs d = controlled t m }.
Lemma bool_iff (b : bool) (P : Prop) (v : bool) : (b = true <-> P) -> (v = true <-> P) -> b = v.
Proof. destruct b, v; intros [A B] [C D]; try reflexivity; [specialize (D (A eq_refl))|specialize (B (C eq_refl))]; discriminate. Qed.
Lemma wrappers_of p : In p presets -> is_dc (pr_motor p) = true -> all_names p = motor_states (pr_motor p) ++ match pr_motor p with ShuntDc => ["i_sum"] | _ => [] end /\ (pr_wrappers p <> [] <-> pr_motor p = ShuntDc).
Proof.
  intros H D. unfold presets in H. repeat (destruct H as [<-|H]; [try discriminate D; (split; [reflexivity|split; intros X; try discriminate X; try (exfalso; apply X; reflexivity); try reflexivity; cbn; discriminate])|]). destruct H.
Qed.
Lemma shape_of f t m p d : In p presets -> pr_id p = env_id f t m -> is_dc m = true -> dc_of p d -> shape t f m d.
Proof.
  intros Ip Id D O. destruct presets_fit_their_ids as (H & _). destruct (H p Ip) as (f1 & t1 & m1 & I1 & F1). rewrite Id in I1.
  pose proof (parse_env_id f t m) as P1. rewrite I1, parse_env_id in P1. injection P1 as -> -> ->. clear I1.
  pose proof (fit_motor _ _ _ _ F1) as Fm. pose proof (fit_conv _ _ _ _ F1) as Fc. pose proof (fit_refs _ _ _ _ F1) as Fr.
  destruct (wrappers_of p Ip ltac:(rewrite Fm; exact D)) as [An W]. rewrite Fm in An, W.
  destruct O as [O1 O2 O3 O4 O5 O6 O7 O8 O9 O10 O11 O12 O13 O14]. rewrite Fm in O7, O8, O9, O10, O11. rewrite Fc in O6.
  constructor.
  - congruence.
  - congruence.
  - congruence.
  - rewrite O1, <- O5. apply forall2_bounded, O4.
  - destruct m, f; try discriminate D; cbn in O6; congruence.
  - rewrite An in O7. unfold positions_of, current_states in O7. destruct m; try discriminate D; cbn in O7; inversion O7 as [|? ? ? ? A B]; subst; try (inversion B as [|? ? ? ? A' B']; subst); cbn in A; injection A as <-; reflexivity.
  - rewrite An in O7. unfold positions_of, current_states in O7. destruct m; try discriminate D; cbn in O7; inversion O7 as [|? ? ? ? A B]; subst; inversion B as [|? ? ? ? A' B']; subst; try (inversion B'; subst; cbn in A'; injection A' as <-; reflexivity); cbn in A; injection A as <-; reflexivity.
  - rewrite An in O8. unfold positions_of, voltage_states in O8. destruct m; try discriminate D; cbn in O8; inversion O8 as [|? ? ? ? A B]; subst; try (inversion B as [|? ? ? ? A' B']; subst); cbn in A; injection A as <-; reflexivity.
  - rewrite An in O8. unfold positions_of, voltage_states in O8. destruct m; try discriminate D; cbn in O8; inversion O8 as [|? ? ? ? A B]; subst; inversion B as [|? ? ? ? A' B']; subst; try (inversion B'; subst; cbn in A'; injection A' as <-; reflexivity); cbn in A; injection A as <-; reflexivity.
  - exact O9.
  - apply (bool_iff _ _ _ O10). destruct m; split; congruence.
  - apply (bool_iff _ _ _ O11). destruct m; split; congruence.
  - apply (bool_iff _ (m = ShuntDc)); [tauto|]. destruct m; split; congruence.
  - congruence.
Qed.

(** ** Bounds *)
Lemma scaled_ok e n u b : bounded_list (en_nominal e) (en_limits e) n -> (u < n)%nat -> exists k, scaled e b u = Ok (b * k) /\ 0 < k <= 1 /\ forall b', scaled e b' u = Ok (b' * k).
Proof.
  intros (L1 & L2 & B) U. unfold scaled. destruct (item_ok (en_nominal e) u) as (x & Hx); [lia|]. destruct (item_ok (en_limits e) u) as (y & Hy); [lia|]. specialize (B u x y Hx Hy). rewrite Hx, Hy. cbn [bind].
  assert (K : forall c, c * x / y = c * (x / y)) by (intros c; unfold Rdiv; ring). exists (x / y). rewrite K. split; [reflexivity|]. split; [|intros b'; rewrite K; reflexivity].
  split; [apply Rdiv_lt_0_compat; lra|]. apply (Rmult_le_reg_r y); [lra|]. unfold Rdiv. rewrite Rmult_assoc, Rinv_l by lra. lra.
Qed.
Lemma read_lims_ok t f m d : is_dc m = true -> shape t f m d -> exists l, read_lims d = Ok l.
Proof.
  intros D [S1 S2 S3 (S4 & S4' & _) S5 S6 S7 S8 S9 S10 S11 S12 S13 S14]. unfold read_lims. rewrite S6, S7, S8, S9, S12. rewrite S1 in *. unfold arm, fld, vlt. destruct S10 as ((la & A1 & A2) & (ra & B1 & B2) & S10).
  destruct m; try discriminate D; cbn in S4'; unfold dict_item; rewrite A1; cbn [motor_states app str_index String.eqb Ascii.eqb Bool.eqb bind];
    (itm (en_limits (dc_env d)) 0%nat x0; itm (en_limits (dc_env d)) 2%nat x2; itm (en_limits (dc_env d)) 3%nat x3; itm (en_limits (dc_env d)) 4%nat x4; [..|];
     try (rewrite Hi3; cbn [bind]); try (destruct S10 as ((le & C1 & C2) & _); rewrite C1; cbn [bind]); eauto).
  itm (en_limits (dc_env d)) 5%nat x5. eauto.
Qed.

(** ** Constructors *)
Lemma index_lt x l i : str_index x l = Ok i -> (i < length l)%nat.
Proof.
  intros G. apply str_index_ok in G. apply nth_error_Some. congruence.
Qed.
Lemma muldiv_length a b c : length a = length b -> length b = length c -> length (muldiv a b c) = length a.
Proof.
  intros A B. unfold muldiv. assert (K : forall (f : R -> R -> R) l l', length l = length l' -> length (map2 f l l') = length l).
  { intros f l. induction l as [|x l IH]; intros [|y l'] H; try discriminate H; cbn; [reflexivity|]. rewrite IH; [reflexivity|]. cbn in H. congruence. }
  rewrite K; rewrite K; congruence.
Qed.
Lemma make_pi e s ca ce : st_type s = "pi_controller" -> exists b, base_make e s ca ce = Ok b /\ is_cont b = true.
Proof. intros T. unfold base_make. rewrite T. cbn. eexists. split; reflexivity. Qed.
Definition stage0 : stage := {| st_type := "three_point"; st_par := [] |}.
Lemma make_three e n ce : action_count (en_space e) = Ok n -> (2 <= n)%Z -> exists b, base_make e stage0 false ce = Ok b /\ valid_base n b.
Proof.
  intros A N. assert (K : exists b, base_make e stage0 false ce = Ok b). { unfold base_make, off_level. rewrite A. cbn. eexists. reflexivity. }
  destruct K as (b & K). exists b. split; [exact K|]. eapply make_discrete; [|exact A|exact N|exact K]. reflexivity.
Qed.
(** The stage that [automated_controller_design] puts first, after the gains are set *)
Definition first_stage (f : bool) (s : stage) : Prop := if f then s = stage0 else st_type s = "pi_controller".
Lemma make_first t f m d s ca ce : is_dc m = true -> shape t f m d -> first_stage f s -> ca = false -> exists b, base_make (dc_env d) s ca ce = Ok b /\ good (negb f) b.
Proof.
  intros D S F ->. destruct f; cbn in F |- *.
  - subst s. apply make_three; [|lia]. rewrite (sh_space _ _ _ _ S). destruct m; reflexivity.
  - destruct (make_pi (dc_env d) s false ce F) as (b & E & C). eauto.
Qed.
Lemma first_cascaded f s l : f = true -> first_stage f s -> is_cascaded (s :: l) s = false.
Proof. intros ->. cbn. intros ->. reflexivity. Qed.
Lemma make_two t f m d s0 s1 : is_dc m = true -> shape t f m d -> first_stage f s0 -> st_type s1 = "pi_controller" ->
  exists b0 b1, make_stages (dc_env d) [s0; s1] [s0; s1] = Ok [b0; b1] /\ good (negb f) b0 /\ is_cont b1 = true.
Proof.
  intros D S F T. cbn [make_stages].
  assert (K : exists b0, base_make (dc_env d) s0 (is_cascaded [s0; s1] s0) false = Ok b0 /\ good (negb f) b0).
  { destruct f eqn:Ef.
    - refine (make_first t true m d s0 _ false D S F _). apply (first_cascaded true); [reflexivity|exact F].
    - destruct (make_pi (dc_env d) s0 (is_cascaded [s0; s1] s0) false F) as (b & E & C). eauto. }
  destruct K as (b0 & -> & G). cbn [bind]. destruct (make_pi (dc_env d) s1 (is_cascaded [s0; s1] s1) false T) as (b1 & -> & C). cbn [bind]. eauto.
Qed.
Definition cascade_task (t : task) : bool := match t with CurrentControl => false | _ => true end.
Lemma index_om t f m d : is_dc m = true -> shape t f m d -> str_index "omega" (en_names (dc_env d)) = Ok 0%nat /\ str_index "torque" (en_names (dc_env d)) = Ok 1%nat /\ (2 <= length (en_names (dc_env d)))%nat /\
  (arm m < length (en_names (dc_env d)))%nat /\ (fld m < length (en_names (dc_env d)))%nat /\ (vlt m < length (en_names (dc_env d)))%nat.
Proof. intros D S. rewrite (sh_names _ _ _ _ S). unfold arm, fld, vlt. destruct m; try discriminate D; cbn; repeat (split; [first [reflexivity|lia]|]); lia. Qed.
Lemma new_plain t f m d s0 s1 : is_dc m = true -> m <> ExtExDc -> cascade_task t = true -> shape t f m d -> first_stage f s0 -> st_type s1 = "pi_controller" ->
  exists c lo hi, cc_new (dc_env d) (SList [s0; s1]) (dc_refs d) = Ok c /\ cc_inv (length (en_names (dc_env d))) (negb f) lo hi c /\ -1 <= lo /\ lo <= hi /\ hi <= 1.
Proof.
  intros D X T S F T1. pose proof (make_two _ _ _ _ _ _ D S F T1) as (b0 & b1 & M & G0 & C1). destruct (index_om _ _ _ _ D S) as (O1 & O2 & O3 & O4 & O5 & O6).
  pose proof (sh_low _ _ _ _ S) as Ll. pose proof (sh_high _ _ _ _ S) as Lh. pose proof (sh_bounds _ _ _ _ S) as B. pose proof B as (B1 & B2 & _).
  unfold cc_new. rewrite (sh_fld _ _ _ _ S), (sh_arm _ _ _ _ S), (sh_v _ _ _ _ S), O1, O2. cbn [bind].
  assert (R : exists rn rs, dc_refs d = [rn] /\ not_ie rn = true /\ str_index rn (en_names (dc_env d)) = Ok rs /\ (rs < length (en_names (dc_env d)))%nat).
  { rewrite (sh_refs _ _ _ _ S). destruct t; try discriminate T; cbn; do 2 eexists; (split; [reflexivity|]); (split; [reflexivity|]); (split; [eassumption|lia]). }
  destruct R as (rn & rs & -> & R1 & R2 & R3). cbn [first_where]. rewrite R1. cbn [bind at_ nth_error]. rewrite R2. cbn [bind].
  assert (Xe : en_extex (dc_env d) = false) by (rewrite (sh_extex _ _ _ _ S); destruct m; try reflexivity; contradiction).
  assert (A : exists lo hi, (match en_space (dc_env d) with SBox low high => do l0 <- item low 0; do h0 <- item high 0; do lo <- scaled (dc_env d) l0 (vlt m); do hi <- scaled (dc_env d) h0 (vlt m); Ok (lo, hi) | _ => Ok (0, 0) end) = Ok (lo, hi) /\ -1 <= lo /\ lo <= hi /\ hi <= 1).
  { rewrite (sh_space _ _ _ _ S). destruct f.
    - exists 0, 0. destruct m; (split; [reflexivity|lra]).
    - destruct (scaled_ok (dc_env d) _ (vlt m) (-1) B O6) as (k & K1 & K2 & K3). exists (-1 * k), (1 * k). destruct m; try contradiction; cbn [item nth_error bind]; rewrite K1, (K3 1); cbn [bind]; (split; [reflexivity|lra]). }
  destruct A as (lo & hi & -> & A). rewrite Xe. cbn [bind length Nat.leb py_assert]. rewrite M. cbn [bind at_ nth_error length fst snd].
  assert (Bx : (match en_space (dc_env d) with SBox _ _ => true | _ => false end) = negb f) by (rewrite (sh_space _ _ _ _ S); destruct f, m; reflexivity).
  rewrite Bx, (good_cont _ _ G0), Bool.eqb_reflx. cbn [py_assert bind]. do 3 eexists. split; [reflexivity|]. split; [|exact A].
  constructor; cbn; try reflexivity; try lia; try congruence.
  - exists rs. auto.
  - exists b0, b1. auto.
  - rewrite muldiv_length; congruence.
  - rewrite muldiv_length; congruence.
Qed.
Lemma new_exc t f d s0 s1 se : cascade_task t = true -> shape t f ExtExDc d -> first_stage f s0 -> st_type s1 = "pi_controller" -> first_stage f se ->
  exists c lo hi lo1 hi1, cc_new (dc_env d) (SPair [s0; s1] [se]) (dc_refs d) = Ok c /\
    xc_inv (length (en_names (dc_env d))) (negb f) (match t with SpeedControl => true | _ => false end) lo hi lo1 hi1 c /\ lo <= hi /\ -1 <= lo1 /\ lo1 <= hi1 /\ hi1 <= 1 /\
    make_stages (dc_env d) [s0; s1] [s0; s1] = Ok (cc_stages c) /\ exists e, cc_exc c = Some e /\ base_make (dc_env d) se false true = Ok (cx_ctl e).
Proof.
  intros T S F T1 Fe. assert (D : is_dc ExtExDc = true) by reflexivity. pose proof (make_two _ _ _ _ _ _ D S F T1) as (b0 & b1 & M & G0 & C1). destruct (index_om _ _ _ _ D S) as (O1 & O2 & O3 & O4 & O5 & O6).
  pose proof (sh_low _ _ _ _ S) as Ll. pose proof (sh_high _ _ _ _ S) as Lh. pose proof (sh_bounds _ _ _ _ S) as B. pose proof B as (B1 & B2 & _).
  destruct (make_first _ _ _ _ se false true D S Fe eq_refl) as (be & Me & Ge).
  unfold cc_new. rewrite (sh_fld _ _ _ _ S), (sh_arm _ _ _ _ S), (sh_v _ _ _ _ S), O1, O2. cbn [bind].
  assert (R : exists rn rs, dc_refs d = [rn] /\ is_ie rn = false /\ not_ie rn = true /\ str_index rn (en_names (dc_env d)) = Ok rs /\ (rs < length (en_names (dc_env d)))%nat /\ (Nat.eqb 0 rs || Nat.eqb 0 (arm ExtExDc))%bool = match t with SpeedControl => true | _ => false end).
  { rewrite (sh_refs _ _ _ _ S). destruct t; try discriminate T; cbn; do 2 eexists; (split; [reflexivity|]); (split; [reflexivity|]); (split; [reflexivity|]); (split; [eassumption|]); (split; [lia|reflexivity]). }
  destruct R as (rn & rs & -> & R0 & R1 & R2 & R3 & R4). cbn [first_where]. rewrite R1, R0. cbn [bind at_ nth_error]. rewrite R2. cbn [bind].
  assert (Ue : str_index "u_e" (en_names (dc_env d)) = Ok 5%nat) by (rewrite (sh_names _ _ _ _ S); reflexivity).
  assert (U5 : (5 < length (en_names (dc_env d)))%nat) by (apply (index_lt _ _ _ Ue)).
  assert (A : exists lo hi, (match en_space (dc_env d) with SBox low high => do l0 <- item low 0; do h0 <- item high 0; do lo <- scaled (dc_env d) l0 (vlt ExtExDc); do hi <- scaled (dc_env d) h0 (vlt ExtExDc); Ok (lo, hi) | _ => Ok (0, 0) end) = Ok (lo, hi) /\ lo <= hi).
  { rewrite (sh_space _ _ _ _ S). destruct f.
    - exists 0, 0. split; [reflexivity|lra].
    - destruct (scaled_ok (dc_env d) _ (vlt ExtExDc) (-1) B O6) as (k & K1 & K2 & K3). exists (-1 * k), (1 * k). cbn [item nth_error bind]; rewrite K1, (K3 1); cbn [bind]; (split; [reflexivity|lra]). }
  assert (A' : exists lo hi, (match en_space (dc_env d) with SBox low high => do l0 <- item low 1; do h0 <- item high 1; do lo <- scaled (dc_env d) l0 5; do hi <- scaled (dc_env d) h0 5; Ok (lo, hi) | _ => Ok (0, 0) end) = Ok (lo, hi) /\ -1 <= lo /\ lo <= hi /\ hi <= 1).
  { rewrite (sh_space _ _ _ _ S). destruct f.
    - exists 0, 0. split; [reflexivity|lra].
    - destruct (scaled_ok (dc_env d) _ 5 (-1) B U5) as (k & K1 & K2 & K3). exists (-1 * k), (1 * k). cbn [item nth_error bind]; rewrite K1, (K3 1); cbn [bind]; (split; [reflexivity|lra]). }
  destruct A as (lo & hi & -> & A). destruct A' as (lo1 & hi1 & A1 & A'). rewrite (sh_extex _ _ _ _ S), Me. cbn [bind]. rewrite Ue. cbn [bind]. rewrite A1. cbn [bind]. rewrite R4. cbn [bind]. rewrite M. cbn [bind at_ nth_error length fst snd].
  assert (Bx : (match en_space (dc_env d) with SBox _ _ => true | _ => false end) = negb f) by (rewrite (sh_space _ _ _ _ S); destruct f; reflexivity).
  rewrite Bx, (good_cont _ _ G0), Bool.eqb_reflx. cbn [py_assert bind]. do 5 eexists. split; [reflexivity|]. split; [|split; [exact A|destruct A' as (A1' & A2' & A3'); split; [exact A1'|]; split; [exact A2'|]; split; [exact A3'|]; split; [first [reflexivity|exact M]|eexists; split; [reflexivity|first [reflexivity|exact Me]]]]].
  pose proof (sh_mp _ _ _ _ S) as (_ & (ra & Ra & _) & _ & (re & Re & _) & _).
  constructor; cbn; try reflexivity; try lia; try congruence.
  - exists rs. destruct t; auto.
  - eexists. split; [reflexivity|]. cbn. auto.
  - exists b0, b1. auto.
  - destruct t; reflexivity.
  - rewrite Ra, Re. split; discriminate.
  - rewrite muldiv_length; congruence.
  - rewrite muldiv_length; congruence.
Qed.
