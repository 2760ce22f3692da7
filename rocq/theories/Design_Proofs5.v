(** Proofs about the automatic controller design for three-phase motors: the constructors. *)
From Coq Require Import Lia Lra ZArith.
From Verif Require Import Ops_Model Ops_Proofs Ops_Props Ops_Props2.
From Verif Require Import PyBase PyBaseFacts PyDict PyDictFacts Transform_Model PhysSys_Model Preset_Model Preset_Props Full_Spec
  Ex_Model Ex_Model2 Ex_Spec Ex_Proofs Ex_Proofs2 Ex_Proofs3 Ex_Proofs5 Ex_Model3 Ex_Spec2 Ex_Proofs6 Ex_Proofs7 Design_Model Design_Spec Design_Proofs Design_Proofs2
  Design_Model2 Design_Spec2 Design_Proofs4.
Local Open Scope string_scope.
Local Open Scope list_scope.
Local Open Scope R_scope.

(** ** What a three-phase environment looks like *)
Definition space3 (f : bool) (m : motor_class) : space :=
  match m, f with
  | Eesm, false => SBox [-1; -1; -1; -1] [1; 1; 1; 1] | Eesm, true => SMulti [8; 4]%Z
  | Dfim, false => SBox [-1; -1; -1; -1; -1; -1] [1; 1; 1; 1; 1; 1] | Dfim, true => SMulti [8; 8]%Z
  | _, false => SBox [-1; -1; -1] [1; 1; 1] | _, true => SDisc 8
  end.
Record shape3 (t : task) (f : bool) (m : motor_class) (d : tp) : Prop := {
  s3_sys : tp_sys d = system_for m;
  s3_names : en_names (tp_env d) = motor_states m;
  s3_low : length (en_low (tp_env d)) = length (motor_states m); s3_high : length (en_high (tp_env d)) = length (motor_states m);
  s3_bounds : bounded_list (en_nominal (tp_env d)) (en_limits (tp_env d)) (length (motor_states m));
  s3_space : en_space (tp_env d) = space3 f m;
  s3_mp : ac_parameters m (en_mp (tp_env d));
  s3_refs : tp_refs d = controlled t m }.
Lemma no_wrappers p : In p presets -> is_dc (pr_motor p) = false -> all_names p = motor_states (pr_motor p).
Proof. intros H D. unfold presets in H. repeat (destruct H as [<-|H]; [try discriminate D; reflexivity|]). destruct H. Qed.
Lemma shape3_of f t m p d : In p presets -> pr_id p = env_id f t m -> is_dc m = false -> ac_of p d -> shape3 t f m d.
Proof.
  intros Ip Id D O. destruct presets_fit_their_ids as (H & _). destruct (H p Ip) as (f1 & t1 & m1 & I1 & F1). rewrite Id in I1.
  pose proof (parse_env_id f t m) as P1. rewrite I1, parse_env_id in P1. injection P1 as -> -> ->. clear I1.
  pose proof (fit_motor _ _ _ _ F1) as Fm. pose proof (fit_conv _ _ _ _ F1) as Fc. pose proof (fit_refs _ _ _ _ F1) as Fr. pose proof (fit_sys _ _ _ _ F1) as Fs.
  pose proof (no_wrappers p Ip ltac:(rewrite Fm; exact D)) as An. rewrite Fm in An. destruct O as [O1 O2 O3 O4 O5 O6 O7 O8 O9 O10]. rewrite Fm in O8. rewrite Fc in O7.
  constructor; try congruence.
  - rewrite <- An, <- O6. apply forall2_bounded, O5.
  - destruct m, f; try discriminate D; cbn in O7; cbn; congruence.
Qed.
Lemma pos_item k mp : positive k mp -> exists v, dict_item k mp = Ok v /\ 0 < v.
Proof. intros (v & E & P). exists v. unfold dict_item. rewrite E. auto. Qed.
Lemma lim_ok t f m d n i : shape3 t f m d -> str_index n (motor_states m) = Ok i -> exists v, state_lim (tp_env d) n = Ok v /\ item (en_limits (tp_env d)) i = Ok v /\ 0 < v.
Proof.
  intros S E. pose proof (index_lt _ _ _ E) as L. destruct (s3_bounds _ _ _ _ S) as (B1 & B2 & B). itm (en_limits (tp_env d)) i v. itm (en_nominal (tp_env d)) i w. exists v. unfold state_lim. rewrite (s3_names _ _ _ _ S), E. cbn [bind]. pose proof (B i w v Hi0 Hi). repeat split; auto; lra.
Qed.
Definition opaque (a : access) : bool := match a with Opaque => true | _ => false end.
Lemma attr a : attribute a = if opaque a then Err AttributeError else Ok tt.
Proof. destruct a; reflexivity. Qed.
Definition pis : stage := plain "pi_controller".
Definition ons : stage := plain "on_off".
Definition name3 (t : task) (m : motor_class) : string :=
  match system_for m, t with
  | SyncSys, CurrentControl | EesmSys, CurrentControl => "foc_controller" | SyncSys, _ | EesmSys, _ => "cascaded_foc_controller"
  | _, CurrentControl => "foc_rotor_flux_observer" | _, _ => "cascaded_foc_rotor_flux_observer" end.
Definition stages3 (t : task) (f : bool) (m : motor_class) : list (list stage) :=
  (if f && negb (match m with Eesm | Dfim => true | _ => false end) then [[ons]; [ons]; [ons]] else [[pis; pis]]) ++ match t with SpeedControl => [[pis]] | _ => [] end.
Lemma design3 t f m d : is_dc m = false -> shape3 t f m d -> tp_design d = if negb (is_sync (system_for m)) && opaque (tp_access d) then Err AttributeError else Ok (name3 t m, stages3 t f m).
Proof.
  intros D S. unfold tp_design. rewrite attr, (s3_sys _ _ _ _ S), (s3_refs _ _ _ _ S), (s3_space _ _ _ _ S). destruct (opaque (tp_access d)), m, t, f; try discriminate D; reflexivity.
Qed.
Lemma lims3 t f m d : is_dc m = false -> shape3 t f m d -> if opaque (tp_access d) then tp_lims d = Err AttributeError else exists L, tp_lims d = Ok L /\
  state_lim (tp_env d) "omega" = Ok (tl_omega L) /\ state_lim (tp_env d) "i_sd" = Ok (tl_isd L) /\ state_lim (tp_env d) "i_sq" = Ok (tl_isq L) /\ state_lim (tp_env d) "u_sd" = Ok (tl_usd L) /\ state_lim (tp_env d) "u_sq" = Ok (tl_usq L) /\ state_lim (tp_env d) "torque" = Ok (tl_torque L).
Proof.
  intros D S. assert (K : forall n, In n ["omega"; "i_sd"; "i_sq"; "u_sd"; "u_sq"; "torque"] -> exists i, str_index n (motor_states m) = Ok i) by (intros n Hn; repeat (destruct Hn as [<-|Hn]; [destruct m; try discriminate D; eexists; reflexivity|]); destruct Hn).
  assert (K2 : forall n, In n ["omega"; "i_sd"; "i_sq"; "u_sd"; "u_sq"; "torque"] -> exists v, state_lim (tp_env d) n = Ok v) by (intros n Hn; destruct (K n Hn) as (i & E); destruct (lim_ok _ _ _ _ _ _ S E) as (v & Hv & _); eauto).
  destruct (K2 "omega") as (v1 & E1); [cbn; tauto|]. destruct (K2 "i_sd") as (v2 & E2); [cbn; tauto|]. destruct (K2 "i_sq") as (v3 & E3); [cbn; tauto|]. destruct (K2 "u_sd") as (v4 & E4); [cbn; tauto|]. destruct (K2 "u_sq") as (v5 & E5); [cbn; tauto|]. destruct (K2 "torque") as (v6 & E6); [cbn; tauto|].
  unfold tp_lims. cbv zeta. rewrite E1. cbn [bind]. rewrite attr. destruct (opaque (tp_access d)); cbn [bind]; [reflexivity|]. rewrite E2, E3, E4, E5, E6. cbn [bind]. eexists. split; [reflexivity|]. cbn. auto 7.
Qed.

(** ** Synchronous motors *)
Definition is_syn (m : motor_class) : bool := match m with Pmsm | Synrm | Eesm => true | _ => false end.
(** The outcome of the torque conversion *)
Definition conversion (d : tp) : res unit := do _ <- tp_tables d; if tp_complex d then tp_grid d else Err AttributeError.
Lemma sync_mp t f m d : is_syn m = true -> shape3 t f m d -> exists p ld lq, dict_item "p" (en_mp (tp_env d)) = Ok p /\ dict_item "l_d" (en_mp (tp_env d)) = Ok ld /\ dict_item "l_q" (en_mp (tp_env d)) = Ok lq.
Proof.
  intros D S. pose proof (s3_mp _ _ _ _ S) as M. unfold ac_parameters in M. destruct m; try discriminate D; destruct M as (M1 & M2 & M3); destruct (pos_item _ _ M1) as (p & P & _); destruct (pos_item _ _ M2) as (ld & Ld & _); destruct (pos_item _ _ M3) as (lq & Lq & _); eauto 7.
Qed.
Lemma sync_current_ok t f m d L a : is_syn m = true -> shape3 t f m d -> exists ld lq, dict_item "l_d" (en_mp (tp_env d)) = Ok ld /\ dict_item "l_q" (en_mp (tp_env d)) = Ok lq /\
  let k := 15 / 10 * en_tau (tp_env d) in let pd := ld / (k * a) / tl_usd L * tl_isd L in let pq := lq / (k * a) / tl_usq L * tl_isq L in
  sync_current (tp_env d) L a pis pis = Ok ((pd, pd / (k * (a * a))), (pi_gains pd (pd / (k * (a * a))) pis, pi_gains pq (pq / (k * (a * a))) pis)).
Proof.
  intros D S. destruct (sync_mp _ _ _ _ D S) as (p & ld & lq & _ & E1 & E2). exists ld, lq. split; [exact E1|]. split; [exact E2|]. cbv zeta. unfold sync_current. rewrite E1, E2. reflexivity.
Qed.
Lemma pi_made e p i : base_make e (pi_gains p i pis) false false = Ok (BPi {| pi_p := p; pi_i := i; pi_tau := en_tau e; pi_int := 0 |}) /\ base_make e (pi_gains p i pis) true false = Ok (BPi {| pi_p := p; pi_i := i; pi_tau := en_tau e; pi_int := 0 |}).
Proof. split; reflexivity. Qed.
Ltac names S m D := rewrite ?(s3_names _ _ _ _ S); destruct m; try discriminate D; cbn [motor_states str_index]; cbn.

Definition overlaid (t : task) (x : stage) : list (list stage) := match t with SpeedControl => [[x]] | _ => [] end.
(** The fixed part of the cascaded controller in all cases *)
Lemma cfoc_new_box t m d a0 a1 b0 b1 g0 g1 : is_syn m = true -> t <> CurrentControl -> opaque (tp_access d) = false -> shape3 t false m d ->
  let ss := [pi_gains a0 a1 pis; pi_gains b0 b1 pis] :: overlaid t (pi_gains g0 g1 pis) in
  let pi p i := BPi {| pi_p := p; pi_i := i; pi_tau := en_tau (tp_env d); pi_int := 0 |} in
  match conversion d with
  | Err x => cfoc_new d ss = Err x
  | Ok _ => exists c s, cfoc_new d ss = Ok (c, s) /\ cf_fix (length (motor_states m)) true c /\ cf_inv true (cf_omega c) s /\
      fs_ctl s = CDq (pi a0 a1, pi b0 b1) /\ fs_over s = match t with SpeedControl => [pi g0 g1] | _ => [] end
  end.
Proof.
  intros D T A S. cbv zeta. pose proof (sync_mp _ _ _ _ D S) as (p & ld & lq & E1 & E2 & E3). destruct (s3_bounds _ _ _ _ S) as (B1 & B2 & _). pose proof (s3_low _ _ _ _ S) as B3. pose proof (s3_high _ _ _ _ S) as B4.
  unfold cfoc_new. cbv zeta. rewrite attr, A. cbn [bind]. rewrite (s3_names _ _ _ _ S), (s3_refs _ _ _ _ S), (s3_space _ _ _ _ S), E1, E2, E3.
  assert (Cv : (if torque_mode (controlled t m) then (do _ <- tp_tables d; if tp_complex d then tp_grid d else Err AttributeError) else Ok tt) = conversion d) by (destruct t; try contradiction; reflexivity).
  destruct (conversion d) as [u|x].
  - destruct t; try contradiction; destruct m; try discriminate D; cbn [bind]; cbn [bind controlled] in Cv |- *; rewrite ?Cv; cbn [bind space3]; (do 2 eexists); (split; [reflexivity|]); cbn [cf_omega cf_torque cf_sl cf_tq cf_par cf_iabc];
      (split; [constructor; cbn [cf_omega cf_torque cf_sl cf_tq cf_par cf_iabc fo_lo fo_hi]; try reflexivity; try (split; reflexivity); try (cbn; lia); constructor; cbn -[en_limits en_low en_high en_nominal]; try reflexivity; try assumption; try lia; do 3 eexists; (split; [|reflexivity]); lia
       |split; [constructor; cbn; auto; eexists; split; reflexivity|split; reflexivity]]).
  - destruct t; try contradiction; destruct m; try discriminate D; cbn [bind]; cbn [bind controlled] in Cv |- *; rewrite ?Cv; reflexivity.
Qed.
Lemma cfoc_new_disc t m d ss : is_syn m = true -> opaque (tp_access d) = false -> shape3 t true m d ->
  match conversion d with
  | Err x => t <> CurrentControl -> cfoc_new d ss = Err x
  | Ok _ =>
      match t with
      | SpeedControl => forall g, m <> Eesm -> ss = [[ons]; [ons]; [ons]; [pi_gains (fst g) (snd g) pis]] -> cfoc_new d ss = Err TypeError
      | TorqueControl =>
          (length ss <> 3%nat -> cfoc_new d ss = Err AssertionError) /\
          (m <> Eesm -> ss = [[ons]; [ons]; [ons]] -> exists c s, cfoc_new d ss = Ok (c, s) /\ cf_fix (length (motor_states m)) false c /\ cf_inv false (cf_omega c) s)
      | CurrentControl => True
      end
  end.
Proof.
  intros D A S. pose proof (sync_mp _ _ _ _ D S) as (p & ld & lq & E1 & E2 & E3). destruct (s3_bounds _ _ _ _ S) as (B1 & B2 & _). pose proof (s3_low _ _ _ _ S) as B3. pose proof (s3_high _ _ _ _ S) as B4.
  destruct t; [..|destruct (conversion d); [exact Logic.I|intros T; contradiction]].
  - assert (Cv : (if torque_mode (controlled SpeedControl m) then (do _ <- tp_tables d; if tp_complex d then tp_grid d else Err AttributeError) else Ok tt) = conversion d) by reflexivity. unfold cfoc_new. cbv zeta. rewrite attr, A. cbn [bind]. rewrite (s3_names _ _ _ _ S), (s3_refs _ _ _ _ S), (s3_space _ _ _ _ S), E1, E2, E3. destruct (conversion d) as [u|x].
    + intros g M ->. destruct m; try discriminate D; try contradiction; cbn [bind]; cbn [bind controlled] in Cv |- *; rewrite ?Cv; reflexivity.
    + intros _. destruct m; try discriminate D; cbn [bind]; cbn [bind controlled] in Cv |- *; rewrite ?Cv; reflexivity.
  - assert (Cv : (if torque_mode (controlled TorqueControl m) then (do _ <- tp_tables d; if tp_complex d then tp_grid d else Err AttributeError) else Ok tt) = conversion d) by reflexivity. unfold cfoc_new. cbv zeta. rewrite attr, A. cbn [bind]. rewrite (s3_names _ _ _ _ S), (s3_refs _ _ _ _ S), (s3_space _ _ _ _ S), E1, E2, E3. destruct (conversion d) as [u|x].
    + split.
      * intros Ls. apply Nat.eqb_neq in Ls. destruct m; try discriminate D; cbn [bind]; cbn [bind controlled] in Cv |- *; rewrite ?Cv; cbn -[Nat.eqb]; rewrite Ls; reflexivity.
      * intros M ->. destruct m; try discriminate D; try contradiction; cbn [bind]; cbn [bind controlled] in Cv |- *; rewrite ?Cv; cbn [bind space3]; unfold make_abc, base_make, off_level; rewrite (s3_space _ _ _ _ S); (do 2 eexists); (split; [reflexivity|]);
          (split; [constructor; cbn [cf_omega cf_torque cf_sl cf_tq cf_par cf_iabc fo_lo fo_hi]; try reflexivity; try (cbn; lia); [constructor; cbn -[en_limits en_low en_high en_nominal]; try reflexivity; try assumption; try lia; do 3 eexists; (split; [|reflexivity]); lia|constructor; cbn -[en_limits]; try lia; assumption|cbn; do 3 eexists; split; [reflexivity|]; lia]
                  |constructor; cbn; auto; split; [reflexivity|]; split; [reflexivity|]; repeat (apply Forall_cons; [cbn; lia|]); apply Forall_nil]).
    + intros _. destruct m; try discriminate D; cbn [bind]; cbn [bind controlled] in Cv |- *; rewrite ?Cv; reflexivity.
Qed.
Lemma foc_fails f m d : is_syn m = true -> opaque (tp_access d) = false -> shape3 CurrentControl f m d -> @foc_new made3 d = Err AttributeError.
Proof.
  intros D A S. unfold foc_new. cbv zeta. rewrite attr, A. cbn [bind]. rewrite (s3_sys _ _ _ _ S), (s3_names _ _ _ _ S), (s3_refs _ _ _ _ S). destruct m; try discriminate D; reflexivity.
Qed.
Lemma gain_box t m d L a : is_syn m = true -> t <> CurrentControl -> shape3 t false m d -> exists ld lq, dict_item "l_d" (en_mp (tp_env d)) = Ok ld /\ dict_item "l_q" (en_mp (tp_env d)) = Ok lq /\
  let k := 15 / 10 * en_tau (tp_env d) in let pd := ld / (k * a) / tl_usd L * tl_isd L in let pq := lq / (k * a) / tl_usq L * tl_isq L in
  let id := pd / (k * (a * a)) in let iq := pq / (k * (a * a)) in
  let tn := pd / id in let pw := tp_j d / (a * a * tn) / tl_torque L * tl_omega L in
  gain_cfoc d L a (stages3 t false m) = Ok ([pi_gains pd id pis; pi_gains pq iq pis] :: overlaid t (pi_gains pw (pw / (a * tn)) pis)).
Proof.
  intros D T S. destruct (sync_current_ok _ _ _ _ L a D S) as (ld & lq & E1 & E2 & E). exists ld, lq. split; [exact E1|]. split; [exact E2|]. cbv zeta in *. unfold gain_cfoc. cbv zeta. rewrite (s3_space _ _ _ _ S), (s3_refs _ _ _ _ S).
  assert (Bx : is_box (space3 false m) = true) by (destruct m; reflexivity). rewrite Bx. destruct t; try contradiction.
  - change (Ex_Model3.has "torque" (controlled SpeedControl m)) with false. cbn [stages3 andb app at_ nth_error bind]. rewrite E. cbn [bind fst snd]. reflexivity.
  - change (Ex_Model3.has "torque" (controlled TorqueControl m)) with true. cbn [stages3 andb app at_ nth_error bind]. rewrite E. cbn [bind fst snd]. reflexivity.
Qed.
Lemma gain_disc t m d L a : is_syn m = true -> shape3 t true m d ->
  match t with
  | SpeedControl => if (match m with Eesm => true | _ => false end) then gain_cfoc d L a (stages3 t true m) = Err IndexError
                    else exists g, gain_cfoc d L a (stages3 t true m) = Ok [[ons]; [ons]; [ons]; [pi_gains (fst g) (snd g) pis]]
  | TorqueControl => gain_cfoc d L a (stages3 t true m) = Ok (stages3 t true m)
  | CurrentControl => True
  end.
Proof.
  intros D S. destruct (sync_mp _ _ _ _ D S) as (p & ld & lq & E1 & E2 & E3). unfold gain_cfoc. cbv zeta. rewrite (s3_space _ _ _ _ S), (s3_refs _ _ _ _ S). rewrite E1, E2, E3.
  assert (Bx : is_box (space3 true m) = false) by (destruct m; reflexivity). rewrite Bx. destruct t; [..|exact Logic.I].
  - change (Ex_Model3.has "omega" (controlled SpeedControl m)) with true. destruct m; try discriminate D; cbn [stages3 andb negb app at_ nth_error bind ons pis plain]; try reflexivity; eexists (_, _); reflexivity.
  - change (Ex_Model3.has "omega" (controlled TorqueControl m)) with false. reflexivity.
Qed.
Lemma gain_foc_ok f m d L a : is_syn m = true -> shape3 CurrentControl f m d -> exists ss, gain_foc d L a (stages3 CurrentControl f m) = Ok ss.
Proof.
  intros D S. unfold gain_foc. rewrite (s3_space _ _ _ _ S), (s3_refs _ _ _ _ S). destruct f.
  - destruct m; try discriminate D; eexists; reflexivity.
  - destruct (sync_current_ok _ _ _ _ L a D S) as (ld & lq & E1 & E2 & E). cbv zeta in E. assert (Bx : is_box (space3 false m) = true) by (destruct m; reflexivity). rewrite Bx. cbn [stages3 andb app at_ nth_error bind].
    assert (H : Ex_Model3.has "i_sq" (controlled CurrentControl m) = true) by (destruct m; try discriminate D; reflexivity). rewrite H. change (stage_class (st_type pis)) with (@Ok bool true). cbn [bind]. rewrite E. eexists. reflexivity.
Qed.
Definition outcome (v : verdict3) (d : tp) (r : res made3) : Prop :=
  match v with Works => exists c, r = Ok c /\ usable3 d c | Useless => exists c, r = Ok c /\ useless d c | Raise x => r = Err x end.
Lemma refs_pos t f m d : is_dc m = false -> shape3 t f m d -> (0 < length (tp_refs d))%nat.
Proof. intros D S. rewrite (s3_refs _ _ _ _ S). destruct t, m; cbn; lia. Qed.
Lemma syn_ac m : is_syn m = true -> is_dc m = false.
Proof. destruct m; cbn; congruence. Qed.
Lemma fine_box m d l : (match m with Eesm | Dfim => false | _ => true end) = true -> en_space (tp_env d) = space3 false m -> Forall box_action l -> Forall (in_space (en_space (tp_env d))) l.
Proof.
  intros M E. rewrite E. apply Forall_impl. intros x (Lx & Fx). destruct x as [|x0 [|x1 [|x2 [|]]]]; try discriminate Lx. pose proof (Forall_inv Fx) as F0. apply Forall_inv_tail in Fx. pose proof (Forall_inv Fx) as F1. apply Forall_inv_tail in Fx. pose proof (Forall_inv Fx) as F2.
  destruct m; try discriminate M; cbn; (split; [repeat (apply Forall2_cons; [cbn; assumption|]); apply Forall2_nil|reflexivity]).
Qed.
Lemma bad_size m d l : (match m with Eesm | Dfim => true | _ => false end) = true -> en_space (tp_env d) = space3 false m -> Forall box_action l -> Forall (fun a => ~ in_space (en_space (tp_env d)) a) l.
Proof. intros M E. rewrite E. apply Forall_impl. intros x (Lx & _) H. destruct m; try discriminate M; cbn in H; destruct H as [_ H]; cbn in H; congruence. Qed.
Lemma converted_eq d v r : outcome (match conversion d with Err x => Raise x | Ok _ => v end) d r -> outcome (converted d v) d r.
Proof. unfold conversion, converted. destruct (tp_tables d); cbn [bind]; [|auto]. destruct (tp_complex d); auto. Qed.
Lemma box_outcome t m d a0 a1 b0 b1 g0 g1 : is_syn m = true -> t <> CurrentControl -> opaque (tp_access d) = false -> shape3 t false m d ->
  outcome (converted d (match m with Eesm => Useless | _ => Works end)) d
    (do c <- cfoc_new d ([pi_gains a0 a1 pis; pi_gains b0 b1 pis] :: overlaid t (pi_gains g0 g1 pis)); Ok (MCfoc (fst c) (snd c))).
Proof.
  intros D T A S. apply converted_eq. pose proof (cfoc_new_box t m d a0 a1 b0 b1 g0 g1 D T A S) as C. cbv zeta in C. destruct (conversion d) as [u|x]; [|rewrite C; reflexivity].
  destruct C as (c & s & -> & Fx & Iv & _). cbn [bind fst snd]. pose proof (refs_pos _ _ _ _ (syn_ac m D) S) as Rp. pose proof (s3_space _ _ _ _ S) as Sp.
  assert (K : forall h, Forall (sized (length (en_names (tp_env d))) (length (tp_refs d))) h -> forall T0 (conv : T0 -> list R -> R -> res (T0 * (R * R))) creset ts, match cf_run conv creset c ts s h with Ok l => Forall box_action l | Err x => exists ts' st tt, conv ts' st tt = Err x end).
  { intros h F T0 conv creset ts. rewrite (s3_names _ _ _ _ S) in F. apply (cf_total conv creset _ true c Fx _ Rp h ts s Iv F). }
  destruct m; try discriminate D; cbn [outcome]; eexists; (split; [reflexivity|]); intros h F; cbv zeta.
  - intros T0 conv creset ts. specialize (K h F T0 conv creset ts). destruct (cf_run conv creset c ts s h); [|exact K]. exact (fine_box Pmsm d _ eq_refl Sp K).
  - intros T0 conv creset ts. specialize (K h F T0 conv creset ts). destruct (cf_run conv creset c ts s h); [|exact K]. exact (fine_box Synrm d _ eq_refl Sp K).
  - intros T0 conv creset ts l E. specialize (K h F T0 conv creset ts). rewrite E in K. exact (bad_size Eesm d _ eq_refl Sp K).
Qed.
Lemma disc_outcome t m d ss : is_syn m = true -> opaque (tp_access d) = false -> shape3 t true m d ->
  match t with
  | SpeedControl => m <> Eesm -> (exists g, ss = [[ons]; [ons]; [ons]; [pi_gains (fst g) (snd g) pis]]) -> outcome (converted d (Raise TypeError)) d (do c <- cfoc_new d ss; Ok (MCfoc (fst c) (snd c)))
  | TorqueControl => ss = stages3 t true m -> outcome (converted d (match m with Eesm => Raise AssertionError | _ => Works end)) d (do c <- cfoc_new d ss; Ok (MCfoc (fst c) (snd c)))
  | CurrentControl => True
  end.
Proof.
  intros D A S. pose proof (cfoc_new_disc t m d ss D A S) as C. pose proof (refs_pos _ _ _ _ (syn_ac m D) S) as Rp. pose proof (s3_space _ _ _ _ S) as Sp. destruct t; [..|exact Logic.I].
  - intros M (g & G). apply converted_eq. destruct (conversion d) as [u|x]; cbn [outcome]; [rewrite (C g M G); reflexivity|rewrite C; [reflexivity|discriminate]].
  - intros G. apply converted_eq. destruct (conversion d) as [u|x]; [|cbn [outcome]; rewrite C; [reflexivity|discriminate]]. destruct C as [C1 C2].
    assert (K : m <> Eesm -> outcome Works d (do c <- cfoc_new d ss; Ok (MCfoc (fst c) (snd c)))).
    { intros M. destruct C2 as (c & s & -> & Fx & Iv); [exact M|subst ss; destruct m; try discriminate D; try contradiction; reflexivity|]. cbn [bind fst snd outcome]. eexists. split; [reflexivity|]. intros h F. cbv zeta. intros T0 conv creset ts. rewrite (s3_names _ _ _ _ S) in F.
      pose proof (cf_total conv creset _ false c Fx _ Rp h ts s Iv F) as Q. destruct (cf_run conv creset c ts s h); [|exact Q]. rewrite Sp. revert Q. apply Forall_impl. intros x (v & -> & V). destruct m; try discriminate D; try contradiction; cbn; exists v; auto. }
    destruct m; try discriminate D; try (apply K; discriminate). cbn [outcome]. rewrite C1; [reflexivity|]. subst ss. cbn. discriminate.
Qed.
Lemma make3_sync t f m d a : is_syn m = true -> opaque (tp_access d) = false -> shape3 t f m d -> outcome (ac_verdict f t m d) d (make3 d a).
Proof.
  intros D A S. pose proof (design3 _ _ _ _ (syn_ac m D) S) as Ds. pose proof (lims3 _ _ _ _ (syn_ac m D) S) as Lm. rewrite A in Ds, Lm. rewrite andb_false_r in Ds. destruct Lm as (L & Lm & _).
  unfold make3. rewrite Ds, Lm. cbn [bind fst snd]. assert (Ac : forall X (x y : X), match tp_access d with Opaque => x | _ => y end = y) by (intros; destruct (tp_access d); try reflexivity; discriminate A).
  unfold ac_verdict. rewrite Ac. destruct t.
  - assert (N : name3 SpeedControl m = "cascaded_foc_controller") by (destruct m; try discriminate D; reflexivity). rewrite N. cbn [String.eqb Ascii.eqb Bool.eqb]. destruct f.
    + pose proof (gain_disc SpeedControl m d L a D S) as G. cbv beta iota in G. pose proof (fun ss => disc_outcome SpeedControl m d ss D A S) as C. cbv beta iota in C. destruct m; try discriminate D; try (rewrite G; reflexivity); destruct G as (g & ->); cbn [bind]; apply C; try discriminate; exists g; reflexivity.
    + destruct (gain_box SpeedControl m d L a D ltac:(discriminate) S) as (ld & lq & _ & _ & G). cbv zeta in G. rewrite G. cbn [bind]. match goal with |- outcome _ d (do c <- cfoc_new d ([pi_gains ?a0 ?a1 pis; pi_gains ?b0 ?b1 pis] :: overlaid _ (pi_gains ?g0 ?g1 pis)); _) => pose proof (box_outcome SpeedControl m d a0 a1 b0 b1 g0 g1 D ltac:(discriminate) A S) as C end.
      destruct m; try discriminate D; exact C.
  - assert (N : name3 TorqueControl m = "cascaded_foc_controller") by (destruct m; try discriminate D; reflexivity). rewrite N. cbn [String.eqb Ascii.eqb Bool.eqb]. destruct f.
    + pose proof (gain_disc TorqueControl m d L a D S) as G. cbv beta iota in G. rewrite G. cbn [bind]. pose proof (disc_outcome TorqueControl m d _ D A S eq_refl) as C. destruct m; try discriminate D; exact C.
    + destruct (gain_box TorqueControl m d L a D ltac:(discriminate) S) as (ld & lq & _ & _ & G). cbv zeta in G. rewrite G. cbn [bind]. match goal with |- outcome _ d (do c <- cfoc_new d ([pi_gains ?a0 ?a1 pis; pi_gains ?b0 ?b1 pis] :: overlaid _ (pi_gains ?g0 ?g1 pis)); _) => pose proof (box_outcome TorqueControl m d a0 a1 b0 b1 g0 g1 D ltac:(discriminate) A S) as C end.
      destruct m; try discriminate D; exact C.
  - assert (N : name3 CurrentControl m = "foc_controller") by (destruct m; try discriminate D; reflexivity). rewrite N. cbn [String.eqb Ascii.eqb Bool.eqb]. destruct (gain_foc_ok f m d L a D S) as (ss & ->). cbn [bind]. rewrite (foc_fails f m d D A S). destruct m; try discriminate D; reflexivity.
Qed.
