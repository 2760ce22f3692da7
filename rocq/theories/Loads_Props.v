(** Theorems about the mechanical loads. *)
From Verif Require Import PyBase PyBaseFacts PyDict PyDictFacts Utils_Model Transform_Model Solver_Model Init_Model Init_Spec Init_Proofs Loads_Model Loads_Spec Loads_Proofs.

(** ** C40 Loads are independent of each other *)
(** Loads with their own dictionary are: whatever other loads do in between, a reset
    gives the same. *)
Theorem loads_independent_if_private : forall w ops i l e tn pool us,
  nth_error (snd w) i = Some l -> avoids (ld_cell l) w ops ->
  snd (load_step (load_run w ops) (ResetLoad i e tn pool us)) = snd (load_step w (ResetLoad i e tn pool us)).
Proof.
  intros w ops i l e tn pool us Hi Ha. pose proof (run_loads ops w i l Hi) as Hi'. pose proof (run_frame ops w _ Ha) as Hh.
  destruct w as [h ls], (load_run (h, ls) ops) as [h' ls']. cbn [fst snd] in *. cbn [load_step]. rewrite Hi, Hi'. unfold load_reset. rewrite Hh.
  destruct (load_initialize _ _ _ _ _ _); reflexivity.
Qed.
Print Assumptions loads_independent_if_private.
Definition plain_opts : load_opts := {| lo_interval := None; lo_random := None; lo_params := (None, None) |}.
Definition omega_env (nom : R) : load_env := {| le_nominal := [nom]; le_positions := [("omega"%string, 0%nat)]; le_low := [-1] |}.
Example loads_independent_example : exists w i l ops, nth_error (snd w) i = Some l /\ avoids (ld_cell l) w ops /\ length ops = 2%nat.
Proof.
  exists (load_run (heap_init (fun _ => [("omega"%string, 3)]), []) [NewConst 5 (Some 0%nat) plain_opts]), 0%nat.
  cbn [load_run fold_left load_step fst]. unfold new_const. destruct (reqP 5 0) as [|_]; [lra|]. cbn [bind fst snd app].
  eexists. exists [NewConst 7 None plain_opts; NewPoly None plain_opts]. split; [reflexivity|]. split; [|reflexivity].
  cbn [ld_cell pick avoids op_cell]. split; [discriminate|]. split; [discriminate|exact I].
Qed.

Lemma omega_reset nom x o tn pool us : lo_random o = None -> lo_interval o = None ->
  load_initialize o (omega_env nom) tn pool us [("omega"%string, x)] = (if rle (nom * -1) x && rle x nom then Ok [("omega"%string, x)] else Err PlainException).
Proof.
  intros H1 H2. unfold load_initialize. rewrite H1, H2.
  assert (B : load_bounds (omega_env nom) None (dict_keys [("omega"%string, x)]) = Ok ([nom * -1], [nom])) by reflexivity.
  rewrite B. cbn [bind all_le dict_values map snd]. now rewrite !andb_true_r.
Qed.
Lemma rle_t a b : a <= b -> rle a b = true. Proof. intros H. destruct (rleP a b); [reflexivity|contradiction]. Qed.

(** The loads of one class share the class dictionary: a constant speed load starts its
    episodes with the speed of whichever load was built last.  Exactly, for every
    history without random initialisation: *)
Lemma run_last_fixed ops : Forall no_draw ops -> forall h ls x,
  Forall (fun l => lo_random (ld_opts l) = None) ls -> h ConstClass = [("omega"%string, x)] ->
  Forall (fun l => lo_random (ld_opts l) = None) (snd (load_run (h, ls) ops)) /\
  fst (load_run (h, ls) ops) ConstClass = [("omega"%string, last_fixed ops x)].
Proof.
  induction 1 as [|op ops Hop _ IH]; intros h ls x Hls Hx; [auto|]. rewrite run_cons.
  destruct op as [wf user o|user o|i e tn pool us].
  - cbn [load_step]. unfold new_const. destruct user as [n|]; cbn [pick].
    + destruct (if req wf 0 then dict_item "omega"%string (h (UserDict n)) else Ok wf) as [v|er]; cbn [bind fst]; [|now apply IH].
      change (last_fixed (NewConst wf (Some n) o :: ops) x) with (last_fixed ops x).
      apply IH; [apply Forall_app; split; [exact Hls|constructor; [exact Hop|constructor]]|].
      destruct (req wf 0); [exact Hx|]. rewrite heap_set_other by discriminate. exact Hx.
    + change (last_fixed (NewConst wf None o :: ops) x) with (last_fixed ops (if req wf 0 then x else wf)).
      rewrite Hx. change (dict_item "omega"%string [("omega"%string, x)]) with (@Ok R x).
      destruct (req wf 0); cbn [bind fst]; (apply IH; [apply Forall_app; split; [exact Hls|constructor; [exact Hop|constructor]]|]); [exact Hx|].
      now rewrite heap_set_same.
  - cbn [load_step fst]. change (last_fixed (NewPoly user o :: ops) x) with (last_fixed ops x).
    apply IH; [|exact Hx]. apply Forall_app. split; [exact Hls|constructor; [exact Hop|constructor]].
  - cbn [load_step]. change (last_fixed (ResetLoad i e tn pool us :: ops) x) with (last_fixed ops x).
    destruct (nth_error ls i) as [l|] eqn:El; [|now apply IH]. unfold load_reset.
    destruct (load_initialize (ld_opts l) e tn pool us (h (ld_cell l))) as [d|er] eqn:Ed; cbn [bind fst]; [|now apply IH].
    apply IH; [exact Hls|]. rewrite Forall_forall in Hls. apply load_init_none in Ed; [|apply Hls; eapply nth_error_In; exact El]. subst d.
    destruct (cell_eqb_spec ConstClass (ld_cell l)) as [E|E]; [rewrite <- E, heap_set_same; exact Hx|now rewrite heap_set_other].
Qed.
Theorem const_speed_is_last_built : forall user ops i l nom tn pool us,
  Forall no_draw ops -> let w := load_run (heap_init user, []) ops in
  nth_error (snd w) i = Some l -> ld_cell l = ConstClass -> lo_interval (ld_opts l) = None ->
  Rabs (last_fixed ops 0) <= nom ->
  snd (load_step w (ResetLoad i (omega_env nom) tn pool us)) = Ok [last_fixed ops 0].
Proof.
  intros user ops i l nom tn pool us Hops w Hi Hc Hiv Hn.
  assert (AB : Forall (fun l => lo_random (ld_opts l) = None) (snd w) /\ fst w ConstClass = [("omega"%string, last_fixed ops 0)]).
  { apply run_last_fixed; [exact Hops|constructor|reflexivity]. }
  destruct AB as [A B]. clearbody w.
  destruct w as [h ls]. cbn [fst snd] in *. cbn [load_step]. rewrite Hi. unfold load_reset. rewrite Hc, B.
  rewrite Forall_forall in A. rewrite omega_reset; [|apply A; eapply nth_error_In; exact Hi|exact Hiv].
  pose proof (Rle_abs (last_fixed ops 0)) as A1. pose proof (Rle_abs (- last_fixed ops 0)) as A2. rewrite Rabs_Ropp in A2.
  rewrite !rle_t by lra. reflexivity.
Qed.
Print Assumptions const_speed_is_last_built.
(** So a load built for speed [w1] starts with the speed [w2] of a load built later. *)
Theorem const_speed_shared_refuted : forall user w1 w2 nom tn pool us,
  w1 <> 0 -> w2 <> 0 -> w1 <> w2 -> Rabs w2 <= nom ->
  let w := load_run (heap_init user, []) [NewConst w1 None plain_opts; NewConst w2 None plain_opts] in
  (exists l, nth_error (snd w) 0 = Some l /\ ld_omega l = Some w1) /\
  snd (load_step w (ResetLoad 0 (omega_env nom) tn pool us)) = Ok [w2].
Proof.
  intros user w1 w2 nom tn pool us H1 H2 H12 Hn w.
  assert (Ew : snd w = [{| ld_cell := ConstClass; ld_opts := plain_opts; ld_omega := Some w1 |}; {| ld_cell := ConstClass; ld_opts := plain_opts; ld_omega := Some w2 |}]).
  { subst w. cbn [load_run fold_left load_step fst]. unfold new_const. destruct (reqP w1 0) as [|_]; [contradiction|]. cbn [bind fst load_step]. unfold new_const.
    destruct (reqP w2 0) as [|_]; [contradiction|]. reflexivity. }
  split; [eexists; split; [rewrite Ew; reflexivity|reflexivity]|].
  assert (L : last_fixed [NewConst w1 None plain_opts; NewConst w2 None plain_opts] 0 = w2).
  { cbn [last_fixed]. destruct (reqP w2 0) as [|_]; [contradiction|reflexivity]. }
  rewrite <- L at 1. unfold w. eapply const_speed_is_last_built.
  - constructor; [reflexivity|]. constructor; [reflexivity|constructor].
  - fold w. rewrite Ew. reflexivity.
  - reflexivity.
  - reflexivity.
  - now rewrite L.
Qed.
Print Assumptions const_speed_shared_refuted.
Example const_speed_shared_example : exists w1 w2 nom : R, w1 <> 0 /\ w2 <> 0 /\ w1 <> w2 /\ Rabs w2 <= nom.
Proof. exists 1, 2, 3. rewrite Rabs_pos_eq by lra. lra. Qed.

(** A random draw of one polynomial load becomes the "constant" initial speed of the
    other ones. *)
Theorem poly_random_leaks_refuted : forall user nom tn pool us us' o, 0 < nom -> unit_draws us ->
  o = {| lo_interval := None; lo_random := Some Uniform; lo_params := (None, None) |} ->
  let w := load_run (heap_init user, []) [NewPoly None plain_opts; NewPoly None o; ResetLoad 1 (omega_env nom) tn pool us] in
  exists u, us 1%nat = [u] /\ snd (load_step w (ResetLoad 0 (omega_env nom) tn pool us')) = Ok [2 * nom * u - nom].
Proof.
  intros user nom tn pool us us' o Hn Hus -> w. destruct (Hus 1%nat) as [L H]. destruct (us 1%nat) as [|u [|? ?]] eqn:Eu; try discriminate.
  exists u. split; [reflexivity|]. specialize (H u (or_introl eq_refl)).
  assert (Ew : exists x, x = 2 * nom * u - nom /\ fst w PolyClass = [("omega"%string, x)] /\ nth_error (snd w) 0 = Some (new_poly None plain_opts)).
  { subst w. cbn [load_run fold_left load_step fst snd app nth_error]. unfold load_reset. cbn [new_poly ld_cell ld_opts pick heap_init].
    unfold load_initialize. cbn [lo_interval lo_random lo_params].
    assert (B : load_bounds (omega_env nom) None (dict_keys [("omega"%string, 0)]) = Ok ([nom * -1], [nom])) by reflexivity.
    rewrite B. cbn [bind]. change (length (dict_keys [("omega"%string, 0)])) with 1%nat. rewrite Eu. cbn [map2 fst snd bind].
    exists ((nom - nom * -1) * u + nom * -1). split; [lra|]. split; [|reflexivity]. rewrite heap_set_same. reflexivity. }
  destruct Ew as (x & Ex & Eh & El). rewrite <- Ex. clearbody w. destruct w as [h ls]. cbn [fst snd] in *. cbn [load_step]. rewrite El. unfold load_reset.
  cbn [new_poly ld_cell ld_opts pick]. rewrite Eh, omega_reset by reflexivity. rewrite !rle_t by nra. reflexivity.
Qed.
Print Assumptions poly_random_leaks_refuted.

(** ** C41 The polynomial load *)
(** For every way of building it (any number of attached drives): the torque is the
    textbook friction; it is odd, never decreasing, opposes the rotation and is
    continuous. *)
Theorem poly_load_is_friction : forall a b c j js, 0 <= a -> 0 <= b -> 0 <= c -> 0 < j -> (forall x, In x js -> 0 <= x) ->
  exists p0 p, poly_new a b c j = Ok p0 /\ poly_attach p0 js = Ok p /\
    (forall w, static_load p w = friction a b c ((j + rsum js) / (1 / 1000)) w) /\
    (forall w, static_load p (- w) = - static_load p w) /\
    (forall v w, v <= w -> static_load p v <= static_load p w) /\
    (forall w, 0 <= w * static_load p w) /\
    continuity (static_load p).
Proof.
  intros a b c j js Ha Hb Hc Hj Hjs. destruct (attach_spec a b c j js Hj Hjs) as (p0 & p & E0 & E & W & J & A & B & C & _).
  exists p0, p. split; [exact E0|]. split; [exact E|].
  assert (F : forall w, static_load p w = friction a b c ((j + rsum js) / (1 / 1000)) w).
  { intros w. rewrite static_load_friction by (auto; congruence). rewrite A, B, C, J. reflexivity. }
  assert (K : 0 <= (j + rsum js) / (1 / 1000)). { destruct W as [W _]. rewrite J in W. lra. }
  split; [exact F|]. split; [intros w; rewrite !F; now apply friction_odd|].
  assert (M : forall v w, v <= w -> static_load p v <= static_load p w) by (intros v w H; rewrite !F; now apply friction_mono).
  split; [exact M|]. split.
  - intros w. assert (Z : static_load p 0 = 0) by (rewrite F; now apply friction_0).
    destruct (Rle_dec 0 w) as [Hw|Hw].
    + specialize (M 0 w Hw). rewrite Z in M. now apply Rmult_le_pos.
    + specialize (M w 0 ltac:(lra)). rewrite Z in M. nra.
  - intros w. apply (continuity_pt_locally_ext (friction a b c ((j + rsum js) / (1 / 1000))) _ 1 w Rlt_0_1); [intros y _; symmetry; apply F|apply friction_continuous].
Qed.
Print Assumptions poly_load_is_friction.
Example poly_load_example : exists p0 p, poly_new 1 1 1 1 = Ok p0 /\ poly_attach p0 [1; 2] = Ok p /\ static_load p 1 = 3.
Proof.
  destruct (attach_spec 1 1 1 1 [1; 2] ltac:(lra)) as (p0 & p & E0 & E & W & J & A & B & C & _). { intros x [<-|[<-|[]]]; lra. }
  exists p0, p. split; [exact E0|]. split; [exact E|]. rewrite static_load_friction by (auto; lra). unfold friction. rewrite A, B, C, J. unfold tau_decay. cbn [rsum].
  rewrite Rabs_right, Rmin_left, Rmax_right by lra. lra.
Qed.
(** The jacobian is the derivative of the mechanical ODE by speed and by torque, at
    every speed except the two corners. *)
Theorem poly_jacobian_is_derivative : forall a b c j js, 0 <= a -> 0 < j -> (forall x, In x js -> 0 <= x) ->
  exists p0 p, poly_new a b c j = Ok p0 /\ poly_attach p0 js = Ok p /\
  forall t w torque, Rabs w <> a * (1 / 1000) / (j + rsum js) -> exists m n,
    poly_jacobian p t [w] torque = Ok ([[m]], [n]) /\
    derivable_pt_lim (fun x => match poly_ode p t [x] torque with Ok [y] => y | _ => 0 end) w m /\
    derivable_pt_lim (fun x => match poly_ode p t [w] x with Ok [y] => y | _ => 0 end) torque n.
Proof.
  intros a b c j js Ha Hj Hjs. destruct (attach_spec a b c j js Hj Hjs) as (p0 & p & E0 & E & W & J & A & B & C & _).
  exists p0, p. split; [exact E0|]. split; [exact E|]. intros t w torque Hw. pose proof (proj1 W) as HJ.
  unfold poly_jacobian, poly_ode. cbn [item nth_error bind]. eexists. eexists. split; [reflexivity|]. split.
  - apply (derivable_pt_lim_ext (fun x => / po_jtotal p * (torque - friction a b c (po_jtotal p / tau_decay) x))).
    { intros z. rewrite static_load_friction by (auto; congruence). rewrite A, B, C. unfold Rdiv at 2. ring. }
    set (k := po_jtotal p / tau_decay). pose proof tau_pos as HT. assert (Hk : 0 < k) by (unfold k; apply Rdiv_lt_0_compat; assumption).
    assert (EL : po_a p * tau_decay / po_jtotal p = a / k) by (rewrite A; unfold k; field; lra). rewrite EL.
    assert (Hw' : Rabs w <> a / k). { intros H. apply Hw. rewrite H. unfold k. rewrite J. unfold tau_decay. field. rewrite <- J. lra. }
    replace ((- po_b p - 2 * sgn w * po_c p * w - (if rlt (a / k) (Rabs w) then 0 else k)) / po_jtotal p)
      with (/ po_jtotal p * (0 - (c * (2 * Rabs w) + b + (if rlt (a / k) (Rabs w) then 0 else k)))).
    + apply (derivable_pt_lim_scal (fun x => torque - friction a b c k x)).
      apply (derivable_pt_lim_minus (fun _ => torque) (friction a b c k)); [apply derivable_pt_lim_const|now apply deriv_friction].
    + assert (S : sgn w * w = Rabs w).
      { destruct (Rtotal_order w 0) as [H|[->|H]]; [rewrite sgn_neg, Rabs_left by exact H; ring|rewrite Rabs_R0; ring|rewrite sgn_pos, Rabs_right by lra; ring]. }
      rewrite <- S, B, C. unfold Rdiv. ring.
  - apply (derivable_pt_lim_ext (fun x => / po_jtotal p * (x - static_load p w))); [intros z; unfold Rdiv; ring|].
    replace (1 / po_jtotal p) with (/ po_jtotal p * (1 - 0)) by (unfold Rdiv; ring).
    apply (derivable_pt_lim_scal (fun x => x - static_load p w)).
    apply (derivable_pt_lim_minus id (fun _ => static_load p w)); [apply derivable_pt_lim_id|apply derivable_pt_lim_const].
Qed.
Print Assumptions poly_jacobian_is_derivative.

(** ** C90 The jacobian is right at standstill of a load without static friction *)
(** With a = 0 (the default) the two corners meet at speed 0, where the ODE is still
    differentiable: the jacobian there is off by -1/tau_decay. *)
Theorem poly_jacobian_standstill_refuted : forall b c j, 0 < j -> exists p,
  poly_new 0 b c j = Ok p /\
  forall t torque, derivable_pt_lim (fun x => match poly_ode p t [x] torque with Ok [y] => y | _ => 0 end) 0 (- b / j) /\
    poly_jacobian p t [0] torque = Ok ([[- b / j - 1000]], [1 / j]).
Proof.
  intros b c j Hj. destruct (attach_spec 0 b c j [] Hj) as (p0 & p & E0 & E & W & J & A & B & C & _). { intros x []. }
  injection E as ->. exists p. split; [exact E0|]. intros t torque. cbn [rsum] in J. rewrite Rplus_0_r in J. pose proof tau_pos as HT. split.
  - apply (derivable_pt_lim_ext (fun x => / j * (torque - (c * (x * Rabs x) + b * x)))).
    { intros z. unfold poly_ode. cbn [item nth_error bind]. rewrite static_load_friction by (auto; lra). unfold friction. rewrite A, B, C, J.
      replace (Rmax (- 0) (Rmin 0 (j / tau_decay * z))) with 0.
      - unfold Rdiv. ring.
      - unfold Rmax, Rmin. repeat destruct (Rle_dec _ _); lra. }
    replace (- b / j) with (/ j * (0 - (c * (2 * Rabs 0) + b))) by (rewrite Rabs_R0; unfold Rdiv; ring).
    apply (derivable_pt_lim_scal (fun x => torque - (c * (x * Rabs x) + b * x))).
    apply (derivable_pt_lim_minus (fun _ => torque) (fun x => c * (x * Rabs x) + b * x)); [apply derivable_pt_lim_const|].
    apply (derivable_pt_lim_plus (fun w => c * (w * Rabs w)) (fun w => b * w)); [|apply deriv_lin].
    apply (derivable_pt_lim_scal (fun w => w * Rabs w)). apply deriv_sq_abs.
  - unfold poly_jacobian. cbn [item nth_error bind]. rewrite A, B, C, J, sgn_0, Rabs_R0. replace (0 * tau_decay / j) with 0 by (unfold Rdiv; ring).
    destruct (rltP 0 0) as [|_]; [lra|].
    match goal with |- Ok ([[?x]], _) = Ok ([[?y]], _) => replace x with y; [reflexivity|] end. unfold tau_decay. field. lra.
Qed.
Print Assumptions poly_jacobian_standstill_refuted.

(** ** C42 Total inertia *)
(** After attaching drives with rotor inertias [js] the total inertia is the load's plus
    all of theirs. *)
Theorem inertia_accumulates : forall a b c j js, 0 < j -> (forall x, In x js -> 0 <= x) ->
  exists p0 p, poly_new a b c j = Ok p0 /\ poly_attach p0 js = Ok p /\ po_jtotal p = po_jload p + rsum js /\ po_jload p = j.
Proof.
  intros a b c j js Hj Hjs. destruct (attach_spec a b c j js Hj Hjs) as (p0 & p & E0 & E & W & J & A & B & C & D).
  exists p0, p. rewrite D. auto.
Qed.
Print Assumptions inertia_accumulates.
(** So using a load in a second environment gives the second drive a wrong inertia. *)
Theorem inertia_reuse_refuted : forall a b c j r, 0 < j -> 0 < r -> exists p0 p,
  poly_new a b c j = Ok p0 /\ poly_attach p0 [r; r] = Ok p /\ po_jtotal p <> po_jload p + r.
Proof.
  intros a b c j r Hj Hr. destruct (attach_spec a b c j [r; r] Hj) as (p0 & p & E0 & E & W & J & A & B & C & D). { intros x [<-|[<-|[]]]; lra. }
  exists p0, p. rewrite D, J. cbn. split; [exact E0|]. split; [exact E|]. lra.
Qed.
Print Assumptions inertia_reuse_refuted.

(** ** C43 External speed profiles *)
Lemma ext_one {P} (l : ext_load) (g : P -> R -> list R -> res (list R)) (s s' : euler P) p tau w y r :
  eu_n s = 1%nat -> eu_y s = Some (w :: y) -> ex_tau l <> 0 ->
  integrate (ext_drive l g) (set_f_params p s) (eu_t s + tau) = (s', Ok r) ->
  eu_n s' = 1%nat /\ eu_t s' = eu_t s + tau /\ exists y', eu_y s' = Some ((w + 1 / ex_tau l * (ex_profile l (eu_t s + ex_tau l) - w) * tau) :: y').
Proof.
  intros Hn Hy Ht E. unfold integrate in E. cbn [set_f_params eu_p eu_y eu_n eu_t] in E. rewrite Hy, Hn in E.
  unfold ext_drive, ext_ode in E. destruct (reqP (ex_tau l) 0) as [|_]; [contradiction|]. cbn [item nth_error bind] in E.
  destruct (g p (eu_t s) (w :: y)) as [d|]; cbn [bind] in E; [|discriminate].
  unfold np_add in E. destruct (Nat.eqb _ _) in E; [|discriminate].
  injection E as <- <-. cbn [eu_n eu_t eu_y]. split; [reflexivity|]. split; [reflexivity|].
  eexists. cbn [vscale map app map2]. replace (eu_t s + tau - eu_t s) with tau by ring. reflexivity.
Qed.
(** With the one step Euler solver and the load's sampling time equal to the system's,
    the speed at every control period is the profile's, for any voltages and any
    electrical part. *)
Theorem ext_speed_followed : forall (P : Type) profile tau (g : P -> R -> list R -> res (list R)) ps (s0 s : euler P) y0,
  tau <> 0 -> eu_n s0 = 1%nat -> eu_t s0 = 0 -> eu_y s0 = Some (ext_reset (ext_new profile tau) ++ y0) ->
  euler_steps (ext_drive (ext_new profile tau) g) s0 tau ps = Ok s ->
  eu_t s = INR (length ps) * tau /\ exists y, eu_y s = Some (profile (INR (length ps) * tau) :: y).
Proof.
  intros P profile tau g ps s0 s y0 Ht Hn Ht0 Hy E.
  assert (G : forall ps (s0 s : euler P) t0 y0, eu_n s0 = 1%nat -> eu_t s0 = t0 -> eu_y s0 = Some (profile t0 :: y0) ->
    euler_steps (ext_drive (ext_new profile tau) g) s0 tau ps = Ok s ->
    eu_t s = t0 + INR (length ps) * tau /\ exists y, eu_y s = Some (profile (t0 + INR (length ps) * tau) :: y)).
  { clear - Ht. induction ps as [|p ps IH]; intros s0 s t0 y0 Hn Ht0 Hy E.
    - injection E as <-. cbn [length INR]. rewrite Rmult_0_l, Rplus_0_r. eauto.
    - cbn [euler_steps] in E. destruct (integrate _ _ _) as [s1 [r|]] eqn:E1; [|discriminate].
      destruct (ext_one (ext_new profile tau) g _ _ _ _ _ _ _ Hn Hy Ht E1) as (N1 & T1 & y1 & Y1). cbn [ex_profile ex_tau ext_new] in Y1.
      rewrite Ht0 in T1, Y1. replace (profile t0 + 1 / tau * (profile (t0 + tau) - profile t0) * tau) with (profile (t0 + tau)) in Y1 by (field; exact Ht).
      destruct (IH s1 s (t0 + tau) y1 N1 T1 Y1 E) as [A [y B]]. cbn [length]. rewrite S_INR.
      replace (t0 + (INR (length ps) + 1) * tau) with (t0 + tau + INR (length ps) * tau) by ring. eauto. }
  destruct (G ps s0 s 0 y0 Hn Ht0 Hy E) as [A [y B]]. rewrite !Rplus_0_l in *. eauto.
Qed.
Print Assumptions ext_speed_followed.
Example ext_speed_example : exists s, euler_steps (ext_drive (ext_new (fun t => t * t) 1) (fun (_ : R) _ _ => Ok [])) (set_initial_value [0] 0 (euler_new 1)) 1 [5; 6] = Ok s.
Proof.
  cbn [euler_steps]. unfold integrate at 1. cbn [set_f_params set_initial_value euler_new eu_n eu_t eu_y eu_p]. unfold ext_drive at 1, ext_ode at 1. cbn [ext_new ex_tau].
  destruct (reqP 1 0) as [|_]; [lra|]. cbn [item nth_error bind app vscale map np_add length Nat.eqb map2].
  cbn [euler_steps]. unfold integrate. cbn [set_f_params eu_n eu_t eu_y eu_p]. unfold ext_drive, ext_ode. cbn [ext_new ex_tau].
  destruct (reqP 1 0) as [|_]; [lra|]. cbn [item nth_error bind app vscale map np_add length Nat.eqb map2]. eexists. reflexivity.
Qed.
(** With another sampling time of the load each step mixes the old speed with a profile
    value from another time. *)
Theorem ext_speed_other_tau : forall (P : Type) (l : ext_load) (g : P -> R -> list R -> res (list R)) (s s' : euler P) p tau w y r,
  eu_n s = 1%nat -> eu_y s = Some (w :: y) -> ex_tau l <> 0 ->
  integrate (ext_drive l g) (set_f_params p s) (eu_t s + tau) = (s', Ok r) ->
  exists y', eu_y s' = Some (((1 - tau / ex_tau l) * w + tau / ex_tau l * ex_profile l (eu_t s + ex_tau l)) :: y').
Proof.
  intros P l g s s' p tau w y r Hn Hy Ht E. destruct (ext_one _ _ _ _ _ _ _ _ _ Hn Hy Ht E) as (_ & _ & y' & Y).
  exists y'. rewrite Y. do 2 f_equal. field. exact Ht.
Qed.
Print Assumptions ext_speed_other_tau.
(** With two solver steps per period not even a constant acceleration is followed. *)
Theorem ext_speed_nsteps_refuted : forall tau slope, 0 < tau -> slope <> 0 -> exists s y,
  euler_steps (ext_drive (ext_new (fun t => slope * t) tau) (fun (_ : unit) _ _ => Ok [])) (set_initial_value [0] 0 (euler_new 2)) tau [tt] = Ok s /\
  eu_y s = Some [y] /\ y = 17 / 8 * (slope * tau) /\ y <> slope * tau.
Proof.
  intros tau slope Ht Hs. cbn [euler_steps]. unfold integrate. cbn [set_f_params set_initial_value euler_new eu_n eu_t eu_y eu_p nsteps_loop].
  unfold ext_drive, ext_ode. cbn [ext_new ex_tau]. destruct (reqP tau 0) as [|_]; [lra|].
  cbn [item nth_error bind app vscale map np_add length Nat.eqb map2 ex_profile]. eexists. eexists. split; [reflexivity|]. cbn [eu_y]. split; [reflexivity|].
  match goal with |- ?y = _ /\ _ => assert (E : y = 17 / 8 * (slope * tau)) end.
  { cbn [INR ex_profile ext_new]. field. lra. }
  split; [exact E|]. rewrite E. assert (slope * tau <> 0) by (apply Rmult_integral_contrapositive_currified; lra). lra.
Qed.
Print Assumptions ext_speed_nsteps_refuted.

(** ** C44 The Ornstein-Uhlenbeck load can be constructed *)
Theorem ou_constructor_fails_refuted : forall mu sigma theta tau range draw, ou_new mu sigma theta tau range draw = Err AttributeError.
Proof. intros. reflexivity. Qed.
Print Assumptions ou_constructor_fails_refuted.
(** Its ODE would keep an Euler step inside the range for every noise value, *)
Theorem ou_step_in_range : forall mu sigma theta tau lo hi w z, 0 < tau -> lo <= hi ->
  lo <= w + tau * ou_ode mu sigma theta tau (lo, hi) w z <= hi.
Proof.
  intros mu sigma theta tau lo hi w z Ht Hr. unfold ou_ode, np_clip. cbn [fst snd]. set (x := theta * (mu - w) * tau + sigma * sqrt tau * z).
  set (a := (lo - w) / tau). set (b := (hi - w) / tau). assert (Ea : tau * a = lo - w) by (unfold a; field; lra). assert (Eb : tau * b = hi - w) by (unfold b; field; lra).
  assert (Hab : a <= b). { apply (Rmult_le_reg_l tau); [exact Ht|]. lra. }
  assert (B : a <= Rmin (Rmax x a) b <= b). { split; [apply Rmin_glb; [apply Rmax_r|exact Hab]|apply Rmin_r]. }
  destruct B as [B1 B2]. apply (Rmult_le_compat_l tau) in B1, B2; lra.
Qed.
Print Assumptions ou_step_in_range.
(** but the drift over a period is [tau] times too small: without noise and clipping the
    speed moves by theta (mu - w) tau^2. *)
Theorem ou_drift_scaled_refuted : forall mu sigma theta tau lo hi w, 0 < tau ->
  lo <= w + tau * (theta * (mu - w) * tau) <= hi ->
  w + tau * ou_ode mu sigma theta tau (lo, hi) w 0 = w + theta * (mu - w) * (tau * tau).
Proof.
  intros mu sigma theta tau lo hi w Ht [H1 H2]. unfold ou_ode, np_clip. cbn [fst snd]. rewrite Rmult_0_r, Rplus_0_r. set (x := theta * (mu - w) * tau) in *.
  set (a := (lo - w) / tau). set (b := (hi - w) / tau). assert (Ea : tau * a = lo - w) by (unfold a; field; lra). assert (Eb : tau * b = hi - w) by (unfold b; field; lra).
  rewrite Rmax_left by (apply (Rmult_le_reg_l tau); lra). rewrite Rmin_left by (apply (Rmult_le_reg_l tau); lra). unfold x. ring.
Qed.
Print Assumptions ou_drift_scaled_refuted.
