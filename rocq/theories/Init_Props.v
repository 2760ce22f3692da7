(** Theorems about the initialisation of electric motors. *)
From Verif Require Import PyBase PyBaseFacts PyDict PyDictFacts Utils_Model Transform_Model Transform_Proofs Motor_Model MotorLimit_Model Init_Model Init_Spec Init_Proofs.

(** ** C38 Initial values reach the states they are given for *)
(** A constant initialisation hands out the asked values in dictionary order: the user's
    names first, then the other defaults; at every reset, whatever happened before. *)
Theorem init_constant_in_order : forall i e user n tn pool us st,
  in_states i = Some user -> user <> [] -> NoDup (dict_keys user) -> NoDup (dict_keys (ie_default e)) ->
  init_reachable user (ie_default e) st -> in_random i = None ->
  let order := init_order (dict_keys user) (dict_keys (ie_default e)) in
  has_flux order = false -> init_known e (in_interval i) order ->
  let ok := forall j k lo up v, nth_error order j = Some k -> state_box e (in_interval i) j k lo up -> asked user (ie_default e) k = Some v -> lo <= v <= up in
  (ok -> exists st' v, motor_reset i e n tn pool us st = Ok (st', v) /\ init_reachable user (ie_default e) st' /\ delivered order v user (ie_default e)) /\
  (~ ok -> motor_reset i e n tn pool us st = Err PlainException).
Proof. intros. now apply const_reset. Qed.
Print Assumptions init_constant_in_order.

(** All resets of a constantly initialised motor give the same state. *)
Theorem init_constant_repeatable : forall i e user n tn pool uss st v0 st0 us0,
  in_states i = Some user -> user <> [] -> NoDup (dict_keys user) -> NoDup (dict_keys (ie_default e)) ->
  init_reachable user (ie_default e) st -> in_random i = None ->
  let order := init_order (dict_keys user) (dict_keys (ie_default e)) in
  has_flux order = false -> init_known e (in_interval i) order ->
  motor_reset i e n tn pool us0 st = Ok (st0, v0) ->
  exists st', motor_resets i e n tn pool uss st = Ok (st', repeat v0 (length uss)).
Proof.
  intros i e user n tn pool uss st v0 st0 us0 Es Hne Hu Hd Hr Hrand order Hf Hk H0.
  assert (OK : forall j k lo up v, nth_error order j = Some k -> state_box e (in_interval i) j k lo up -> asked user (ie_default e) k = Some v -> lo <= v <= up).
  { destruct (Classical_Prop.classic (forall j k lo up v, nth_error order j = Some k -> state_box e (in_interval i) j k lo up -> asked user (ie_default e) k = Some v -> lo <= v <= up)) as [H|H]; [exact H|].
    pose proof (proj2 (const_reset i e user Es Hne Hu Hd n tn pool us0 st Hr Hrand Hf Hk) H). congruence. }
  destruct (proj1 (const_reset i e user Es Hne Hu Hd n tn pool us0 st Hr Hrand Hf Hk) OK) as (st1 & v1 & E1 & _ & D1).
  rewrite H0 in E1. injection E1 as <- <-.
  revert st Hr H0. induction uss as [|us uss IH]; intros st Hr H0; [eexists; reflexivity|].
  cbn [motor_resets]. destruct (proj1 (const_reset i e user Es Hne Hu Hd n tn pool us st Hr Hrand Hf Hk) OK) as (st2 & v2 & E2 & R2 & D2).
  rewrite E2. cbn [bind fst snd].
  assert (v2 = v0) as ->.
  { apply nth_error_ext'. intros j. destruct (nth_error order j) as [k|] eqn:Ek.
    - now rewrite (proj2 D1 j k Ek), (proj2 D2 j k Ek).
    - apply nth_error_None in Ek. rewrite !(proj2 (nth_error_None _ _)); [reflexivity| |]; [rewrite (proj1 D1)|rewrite (proj1 D2)]; exact Ek. }
  destruct (proj1 (const_reset i e user Es Hne Hu Hd n tn pool us0 st2 R2 Hrand Hf Hk) OK) as (st3 & v3 & E3 & R3 & D3).
  assert (v3 = v0) as ->.
  { apply nth_error_ext'. intros j. destruct (nth_error order j) as [k|] eqn:Ek.
    - now rewrite (proj2 D1 j k Ek), (proj2 D3 j k Ek).
    - apply nth_error_None in Ek. rewrite !(proj2 (nth_error_None _ _)); [reflexivity| |]; [rewrite (proj1 D1)|rewrite (proj1 D3)]; exact Ek. }
  assert (Hs : forall us s s', motor_reset i e n tn pool us s = s' -> motor_reset i e n tn pool us0 s = s') .
  { intros u s s' <-. unfold motor_reset. rewrite Es. destruct user; [congruence|]. unfold initialize. now rewrite Hrand. }
  assert (st0 = st3) as ->.
  { destruct (motor_reset i e n tn pool us0 st) as [[a b]|] eqn:Ea; [|discriminate]. injection H0 as -> ->.
    pose proof (Hs us st _ E2) as E2'. rewrite E2' in Ea. injection Ea as ->.
    clear - E3 E2' Es Hne Hu Hd Hr R2 Hrand Hf Hk.
    rewrite (reset_states _ _ _ _ _ _ _ _ Es Hne), (initialize_plain _ _ _ _ _ _ _ Es Hu Hd Hr Hf) in E2'.
    rewrite (reset_states _ _ _ _ _ _ _ _ Es Hne), (initialize_plain _ _ _ _ _ _ _ Es Hu Hd R2 Hf) in E3.
    destruct (do b0 <- plain_bounds e (init_order (dict_keys user) (dict_keys (ie_default e))); clip_bounds (in_interval i) b0) as [[lo up]|]; [|discriminate].
    cbn [bind] in E2', E3. cbv zeta in E2', E3. rewrite Hrand in E2', E3.
    destruct (all_le lo (dict_values (started user (ie_default e) st)) && _) in E2'; [|discriminate]. cbn [bind] in E2'. injection E2' as H2 _.
    destruct (all_le lo (dict_values (started user (ie_default e) st0)) && _) in E3; [|discriminate]. cbn [bind] in E3. injection E3 as H3 _.
    rewrite <- H3.
    assert (K : forall d d' : dict R, dict_keys d = dict_keys d' -> NoDup (dict_keys d) -> (forall k, dict_get k d = dict_get k d') -> d = d').
    { clear. induction d as [|[k v] d IH]; intros [|[k' v'] d'] Hk Hn Hg; try discriminate; [reflexivity|].
      cbn in Hk. injection Hk as -> Hk. pose proof (Hg k') as G. cbn in G. rewrite String.eqb_refl in G. injection G as ->. f_equal.
      cbn in Hn. inversion Hn as [|? ? Hni Hn']. subst. apply IH; auto. intros k. specialize (Hg k). cbn in Hg.
      destruct (String.eqb_spec k' k) as [->|]; [|exact Hg].
      rewrite (proj2 (dict_get_none k d) Hni). symmetry. apply dict_get_none. fold (dict_keys d') in Hk. now rewrite <- Hk. }
    apply K.
    - rewrite <- H2. rewrite (started_keys _ _ _ Hu Hd Hr). rewrite started_keys; auto. rewrite H2. exact R2.
    - exact (proj1 R2).
    - intros k. rewrite (started_get _ _ _ k Hu Hd R2). rewrite <- H2. now apply started_get. }
  destruct (IH st2 R2 E3) as (st' & ->). cbn [bind fst snd length repeat]. eexists. reflexivity.
Qed.
Print Assumptions init_constant_repeatable.

(** If the dictionary happens to be ordered like the state vector, every named state
    gets its value. *)
Theorem init_delivered_if_ordered : forall i e user names n tn pool us st st' v,
  in_states i = Some user -> user <> [] -> NoDup (dict_keys user) -> NoDup (dict_keys (ie_default e)) ->
  init_reachable user (ie_default e) st -> in_random i = None ->
  has_flux names = false -> init_known e (in_interval i) names ->
  init_order (dict_keys user) (dict_keys (ie_default e)) = names ->
  motor_reset i e n tn pool us st = Ok (st', v) -> delivered names v user (ie_default e).
Proof.
  intros i e user names n tn pool us st st' v Es Hne Hu Hd Hr Hrand Hf Hk <- E.
  destruct (const_reset i e user Es Hne Hu Hd n tn pool us st Hr Hrand Hf Hk) as [A B].
  match type of A with ?P -> _ => destruct (Classical_Prop.classic P) as [H|H] end.
  - destruct (A H) as (s2 & v2 & E2 & _ & D). rewrite E in E2. now injection E2 as <- <-.
  - rewrite (B H) in E. discriminate.
Qed.
Print Assumptions init_delivered_if_ordered.

(** The synchronous motors: defaults i_sq, i_sd, epsilon
    (permanent_magnet_synchronous_motor.py 98), state vector i_sd, i_sq, epsilon. *)
Definition sync_env (nom : R) : init_env :=
  {| ie_default := [("i_sq"%string, 0); ("i_sd"%string, 0); ("epsilon"%string, 0)];
     ie_nominal := [("i_sd"%string, nom); ("i_sq"%string, nom); ("epsilon"%string, PI)];
     ie_limits := []; ie_positions := [("i_sd"%string, 0%nat); ("i_sq"%string, 1%nat); ("epsilon"%string, 2%nat)];
     ie_low := [-1; -1; -1] |}.
Definition sync_layout : list string := ["i_sd"%string; "i_sq"%string; "epsilon"%string].
(** Externally excited DC motor (dc_motor.py 76): defaults and states i_a, i_e. *)
Definition dc_env (nom : R) : init_env :=
  {| ie_default := [("i_a"%string, 0); ("i_e"%string, 0)];
     ie_nominal := [("i_a"%string, nom); ("i_e"%string, nom)];
     ie_limits := []; ie_positions := [("i_a"%string, 0%nat); ("i_e"%string, 1%nat)];
     ie_low := [-1; -1] |}.
Definition dc_layout : list string := ["i_a"%string; "i_e"%string].
Definition const_init (d : dict R) : initializer := {| in_states := Some d; in_interval := None; in_random := None; in_params := (None, None) |}.

Lemma sync_const nom x n tn pool us (d := [("i_sq"%string, x)]) : 0 <= nom -> Rabs x <= nom ->
  exists st', motor_reset (const_init d) (sync_env nom) n tn pool us (initial_states_new (const_init d)) = Ok (st', [x; 0; 0]).
Proof.
  intros Hn Hx. assert (Hu : NoDup (dict_keys d)) by (cbn; constructor; [intros []|constructor]).
  assert (Hd : NoDup (dict_keys (ie_default (sync_env nom)))).
  { cbn. constructor; [intros [H|[H|[]]]; discriminate|]. constructor; [intros [H|[]]; discriminate|]. constructor; [intros []|constructor]. }
  assert (Hr : init_reachable d (ie_default (sync_env nom)) (initial_states_new (const_init d))) by (apply fresh_reachable; auto).
  destruct (const_reset (const_init d) (sync_env nom) d eq_refl ltac:(discriminate) Hu Hd n tn pool us _ Hr eq_refl eq_refl) as [A _].
  - split; [|exact I]. intros k [<-|[<-|[<-|[]]]]; eexists; eexists; eexists; (split; [reflexivity|split; reflexivity]).
  - destruct A as (st' & v & E & _ & [L D]).
    + intros [|[|[|j]]] k lo up v Hj (nm & p & l & N & P & Lo & -> & ->) Hv; cbn in Hj; try discriminate; [injection Hj as <-..|destruct j; discriminate];
        cbn in N, P, Hv; injection N as <-; injection P as <-; cbn in Lo; injection Lo as <-; injection Hv as <-; pose proof PI_RGT_0;
        (split; [|]); try lra; try (apply Rabs_le_inv in Hx; lra); unfold Rabs in Hx; destruct (Rcase_abs x); lra.
    + exists st'. rewrite E. do 2 f_equal. apply nth_error_ext'. intros [|[|[|j]]].
      * now rewrite (D 0%nat _ eq_refl). * now rewrite (D 1%nat _ eq_refl). * now rewrite (D 2%nat _ eq_refl).
      * rewrite !(proj2 (nth_error_None _ _)); [reflexivity|cbn; lia|rewrite L; cbn; lia].
Qed.
(** Asking a synchronous motor for i_sq = x initialises i_sd with x and i_sq with 0. *)
Theorem init_sync_axis_swapped_refuted : forall nom x n tn pool us, 0 <= nom -> Rabs x <= nom -> x <> 0 ->
  let d := [("i_sq"%string, x)] in let i := const_init d in
  exists st' v, motor_reset i (sync_env nom) n tn pool us (initial_states_new i) = Ok (st', v) /\
    v = [x; 0; 0] /\ ~ delivered sync_layout v d (ie_default (sync_env nom)).
Proof.
  intros nom x n tn pool us Hn Hx H0 d i. destruct (sync_const nom x n tn pool us Hn Hx) as (st' & E).
  exists st', [x; 0; 0]. split; [exact E|]. split; [reflexivity|]. intros [_ D]. specialize (D 0%nat "i_sd"%string eq_refl). cbn in D.
  injection D as D. lra.
Qed.
Print Assumptions init_sync_axis_swapped_refuted.

Lemma dc_const nom x n tn pool us (d := [("i_e"%string, x)]) : 0 <= nom -> Rabs x <= nom ->
  exists st', motor_reset (const_init d) (dc_env nom) n tn pool us (initial_states_new (const_init d)) = Ok (st', [x; 0]).
Proof.
  intros Hn Hx. assert (Hu : NoDup (dict_keys d)) by (cbn; constructor; [intros []|constructor]).
  assert (Hd : NoDup (dict_keys (ie_default (dc_env nom)))).
  { cbn. constructor; [intros [H|[]]; discriminate|]. constructor; [intros []|constructor]. }
  assert (Hr : init_reachable d (ie_default (dc_env nom)) (initial_states_new (const_init d))) by (apply fresh_reachable; auto).
  destruct (const_reset (const_init d) (dc_env nom) d eq_refl ltac:(discriminate) Hu Hd n tn pool us _ Hr eq_refl eq_refl) as [A _].
  - split; [|exact I]. intros k [<-|[<-|[]]]; eexists; eexists; eexists; (split; [reflexivity|split; reflexivity]).
  - destruct A as (st' & v & E & _ & [L D]).
    + intros [|[|j]] k lo up v Hj (nm & p & l & N & P & Lo & -> & ->) Hv; cbn in Hj; try discriminate; [injection Hj as <-..|destruct j; discriminate];
        cbn in N, P, Hv; injection N as <-; injection P as <-; cbn in Lo; injection Lo as <-; injection Hv as <-;
        (split; [|]); try lra; unfold Rabs in Hx; destruct (Rcase_abs x); lra.
    + exists st'. rewrite E. do 2 f_equal. apply nth_error_ext'. intros [|[|j]].
      * now rewrite (D 0%nat _ eq_refl). * now rewrite (D 1%nat _ eq_refl).
      * rewrite !(proj2 (nth_error_None _ _)); [reflexivity|cbn; lia|rewrite L; cbn; lia].
Qed.
(** Asking an externally excited DC motor for i_e = x initialises i_a with x. *)
Theorem init_dc_excitation_swapped_refuted : forall nom x n tn pool us, 0 <= nom -> Rabs x <= nom -> x <> 0 ->
  let d := [("i_e"%string, x)] in let i := const_init d in
  exists st' v, motor_reset i (dc_env nom) n tn pool us (initial_states_new i) = Ok (st', v) /\
    v = [x; 0] /\ ~ delivered dc_layout v d (ie_default (dc_env nom)).
Proof.
  intros nom x n tn pool us Hn Hx H0 d i. destruct (dc_const nom x n tn pool us Hn Hx) as (st' & E).
  exists st', [x; 0]. split; [exact E|]. split; [reflexivity|]. intros [_ D]. specialize (D 0%nat "i_a"%string eq_refl). cbn in D.
  injection D as D. lra.
Qed.
Print Assumptions init_dc_excitation_swapped_refuted.
Example init_swapped_example : exists nom x : R, 0 <= nom /\ Rabs x <= nom /\ x <> 0.
Proof. exists 2, 1. rewrite Rabs_pos_eq by lra. lra. Qed.

(** ** C39 Random initial values stay in their bounds *)
Theorem init_uniform_in_box : forall i e user n tn pool us st,
  in_states i = Some user -> user <> [] -> NoDup (dict_keys user) -> NoDup (dict_keys (ie_default e)) ->
  init_reachable user (ie_default e) st -> in_random i = Some Uniform ->
  let order := init_order (dict_keys user) (dict_keys (ie_default e)) in
  has_flux order = false -> init_known e (in_interval i) order -> unit_draws us ->
  exists st' v, motor_reset i e n tn pool us st = Ok (st', v) /\ init_reachable user (ie_default e) st' /\ length v = length order /\
    forall j k lo up, nth_error order j = Some k -> state_box e (in_interval i) j k lo up -> lo < up ->
    exists x, nth_error v j = Some x /\ lo <= x < up.
Proof.
  intros i e user n tn pool us st Es Hne Hu Hd Hr Hrand order Hf Hk Hus.
  destruct (uniform_reset i e user Es Hne Hu Hd n tn pool us st Hr Hrand Hf Hk Hus) as (st' & v & E & R & L & K).
  exists st', v. repeat (split; [assumption|]). intros j k lo up Hj Hb Hlt. destruct (K j k Hj) as (a & b & u & Hb' & Hu' & Hv).
  assert (a = lo /\ b = up) as [-> ->].
  { destruct Hb as (x1 & x2 & x3 & A1 & A2 & A3 & A4), Hb' as (y1 & y2 & y3 & B1 & B2 & B3 & B4).
    rewrite B1 in A1. injection A1 as <-. rewrite B2 in A2. injection A2 as <-. rewrite B3 in A3. injection A3 as <-.
    destruct (interval_at (in_interval i) j) as [[p q]|]; destruct A4, B4; split; congruence. }
  eexists. split; [exact Hv|]. destruct (Hus (length order)) as [_ Hin]. apply nth_error_In in Hu'. specialize (Hin u Hu'). nra.
Qed.
Print Assumptions init_uniform_in_box.
(** Conversely every point of the box comes up for some draw. *)
Theorem init_uniform_covers_box : forall i e user n tn pool st target,
  in_states i = Some user -> user <> [] -> NoDup (dict_keys user) -> NoDup (dict_keys (ie_default e)) ->
  init_reachable user (ie_default e) st -> in_random i = Some Uniform ->
  let order := init_order (dict_keys user) (dict_keys (ie_default e)) in
  has_flux order = false -> init_known e (in_interval i) order -> length target = length order ->
  (forall j k lo up x, nth_error order j = Some k -> state_box e (in_interval i) j k lo up -> nth_error target j = Some x -> lo <= x < up) ->
  exists us st', unit_draws us /\ motor_reset i e n tn pool us st = Ok (st', target).
Proof.
  intros i e user n tn pool st target Es Hne Hu Hd Hr Hrand order Hf Hk L Ht.
  destruct (box_ok _ _ _ Hk) as (lo & up & Eb). destruct (box_spec _ _ _ _ _ Eb) as (L1 & L2 & K).
  set (f := fun x b => (x - fst b) / (snd b - fst b)).
  set (us0 := map2 f target (combine lo up)).
  set (us := fun m => if Nat.eqb m (length order) then us0 else repeat 0 m).
  assert (Lu0 : length us0 = length order). { subst us0. rewrite map2_length, combine_length. lia. }
  assert (nth_comb : forall j a b, nth_error lo j = Some a -> nth_error up j = Some b -> nth_error (combine lo up) j = Some (a, b)).
  { clear. intros j. revert lo up. induction j as [|j IH]; intros [|x lo] [|y up] a b A B; try discriminate; cbn in *; [now injection A as ->; injection B as ->|auto]. }
  assert (Hus : unit_draws us).
  { intros m. unfold us. destruct (Nat.eqb_spec m (length order)) as [->|].
    - split; [exact Lu0|]. intros u Hin. apply In_nth_error in Hin. destruct Hin as [j Hj].
      assert (Hjl : (j < length order)%nat) by (rewrite <- Lu0; apply nth_error_Some; congruence).
      destruct (nth_error order j) as [k|] eqn:Ek; [|apply nth_error_None in Ek; lia].
      destruct (K j k Ek) as (a & b & Ea & Ebb & Hb). subst us0. rewrite map2_nth_error, (nth_comb j a b Ea Ebb) in Hj.
      destruct (nth_error target j) as [x|] eqn:Ex; [|discriminate]. injection Hj as <-. specialize (Ht j k a b x Ek Hb Ex). unfold f. cbn [fst snd].
      split.
      + apply Rmult_le_pos; [lra|]. left. apply Rinv_0_lt_compat. lra.
      + apply (Rmult_lt_reg_r (b - a)); [lra|]. unfold Rdiv. rewrite Rmult_assoc, Rinv_l by lra. lra.
    - split; [apply repeat_length|]. intros u Hin. apply repeat_spec in Hin. lra. }
  exists us. destruct (uniform_reset i e user Es Hne Hu Hd n tn pool us st Hr Hrand Hf Hk Hus) as (st' & v & E & R & Lv & Kv).
  exists st'. split; [exact Hus|]. rewrite E. do 2 f_equal. apply nth_error_ext'. intros j. fold order in Lv, Kv.
  destruct (nth_error order j) as [k|] eqn:Ek.
  - destruct (Kv j k Ek) as (a & b & u & Hb & Hu' & ->). destruct (K j k Ek) as (a' & b' & Ea & Ebb & Hb').
    assert (a = a' /\ b = b') as [-> ->].
    { destruct Hb as (x1 & x2 & x3 & A1 & A2 & A3 & A4), Hb' as (y1 & y2 & y3 & B1 & B2 & B3 & B4).
      rewrite B1 in A1. injection A1 as <-. rewrite B2 in A2. injection A2 as <-. rewrite B3 in A3. injection A3 as <-.
      destruct (interval_at (in_interval i) j) as [[p q]|]; destruct A4, B4; split; congruence. }
    unfold us in Hu'. rewrite Nat.eqb_refl in Hu'. subst us0. rewrite map2_nth_error, (nth_comb j a' b' Ea Ebb) in Hu'.
    destruct (nth_error target j) as [x|] eqn:Ex; [|discriminate]. injection Hu' as <-. specialize (Ht j k a' b' x Ek Hb' Ex).
    f_equal. unfold f. cbn [fst snd]. field. lra.
  - apply nth_error_None in Ek. rewrite !(proj2 (nth_error_None _ _)); [reflexivity|lia|lia].
Qed.
Print Assumptions init_uniform_covers_box.

(** If the interval misses the nominal box, the values are outside both bounds: nothing
    is refused. *)
Theorem init_uniform_disjoint_refuted : forall nom a b n tn pool us, 0 < nom -> nom < a -> a <= b -> unit_draws us ->
  let i := {| in_states := Some [("i"%string, 0)]; in_interval := Some [(a, b)]; in_random := Some Uniform; in_params := (None, None) |} in
  let e := {| ie_default := [("i"%string, 0)]; ie_nominal := [("i"%string, nom)]; ie_limits := []; ie_positions := [("i"%string, 0%nat)]; ie_low := [-1] |} in
  exists st' x, motor_reset i e n tn pool us (initial_states_new i) = Ok (st', [x]) /\ nom < x <= a.
Proof.
  intros nom a b n tn pool us Hn Ha Hab Hus i e.
  assert (Hu : NoDup (dict_keys [("i"%string, 0)])) by (cbn; constructor; [intros []|constructor]).
  destruct (uniform_reset i e [("i"%string, 0)] eq_refl ltac:(discriminate) Hu Hu n tn pool us (initial_states_new i)) as (st' & v & E & _ & L & K); auto.
  - now apply fresh_reachable.
  - split; [|left; reflexivity]. intros k [<-|[]]. eexists; eexists; eexists; (split; [reflexivity|split; reflexivity]).
  - destruct (K 0%nat "i"%string eq_refl) as (lo & up & u & (nm & p & l & N & P & Lo & Hb) & U & V).
    cbn in N, P. injection N as <-. injection P as <-. cbn in Lo. injection Lo as <-. cbn in Hb. destruct Hb as [-> ->].
    rewrite Rmax_right in V by lra. rewrite Rmin_left in V by lra.
    destruct v as [|x [|y v]]; try discriminate. cbn in V. injection V as ->. exists st', ((nom - a) * u + a). split; [exact E|].
    destruct (Hus 1%nat) as [_ H]. apply nth_error_In in U. specialize (H u U). nra.
Qed.
Print Assumptions init_uniform_disjoint_refuted.
Example init_uniform_example : exists us, unit_draws us.
Proof. exists (fun n => repeat (1 / 2) n). intros n. split; [apply repeat_length|]. intros u H. apply repeat_spec in H. lra. Qed.

(** ** C86 A gaussian initialisation draws anew at every reset *)
(** The seed handed to scipy is the same integer every time: all resets give one value. *)
Theorem init_gaussian_never_varies_refuted : forall i e user n tn pool us us' st st',
  in_states i = Some user -> user <> [] -> NoDup (dict_keys user) -> NoDup (dict_keys (ie_default e)) ->
  init_reachable user (ie_default e) st -> init_reachable user (ie_default e) st' -> in_random i = Some Normal ->
  let order := init_order (dict_keys user) (dict_keys (ie_default e)) in
  has_flux order = false -> init_known e (in_interval i) order ->
  (forall a b loc s k v, tn a b loc s k = Ok v -> length v = length loc) ->
  match motor_reset i e n tn pool us st, motor_reset i e n tn pool us' st' with
  | Ok (s1, v1), Ok (s2, v2) => v1 = v2
  | Err e1, Err e2 => e1 = e2
  | _, _ => False
  end.
Proof.
  intros i e user n tn pool us us' st st' Es Hne Hu Hd Hr Hr' Hrand order Hf Hk Htn.
  destruct (gauss_reset i e user Es Hne Hu Hd n tn pool us st Hr Hrand Hf Hk) as (lo & up & Eb & A1 & A2).
  destruct (gauss_reset i e user Es Hne Hu Hd n tn pool us' st' Hr' Hrand Hf Hk) as (lo' & up' & Eb' & B1 & B2).
  rewrite Eb in Eb'. injection Eb' as <- <-. destruct (box_spec _ _ _ _ _ Eb) as (L1 & L2 & _).
  cbv zeta in A1, A2, B1, B2.
  match type of A1 with forall er, ?d = Err er -> _ => destruct d as [v|er] eqn:Ed end.
  - assert (Lv : length v = length order). { rewrite (Htn _ _ _ _ _ _ Ed). unfold gauss_mue. rewrite map2_length. unfold order. lia. }
    destruct (A2 v eq_refl Lv) as (s1 & -> & _). destruct (B2 v eq_refl Lv) as (s2 & -> & _). reflexivity.
  - now rewrite (A1 er eq_refl), (B1 er eq_refl).
Qed.
Print Assumptions init_gaussian_never_varies_refuted.
(** ** C87 The mean and deviation given for a gaussian initialisation are used *)
(** Both are used, except 0, which counts as not given. *)
Theorem init_gaussian_parameters : forall m lo up, m <> 0 -> length lo = length up ->
  gauss_mue (Some m) lo up = repeat m (length lo) /\ or_num (Some m) 1 = m.
Proof.
  intros m lo up Hm L. assert (O : forall d, or_num (Some m) d = m) by (intros d; cbn; destruct (reqP m 0); [contradiction|reflexivity]).
  split; [|apply O]. unfold gauss_mue. revert up L. induction lo as [|a lo IH]; intros [|b up] L; try discriminate; [reflexivity|].
  cbn [map2 length repeat]. rewrite O. f_equal. apply IH. now injection L.
Qed.
Print Assumptions init_gaussian_parameters.
Theorem init_gaussian_zero_mean_refuted : forall a b, gauss_mue (Some 0) [a] [b] = [(b - a) / 2 + a] /\ or_num (Some 0) 1 = 1.
Proof. intros a b. unfold gauss_mue, or_num. cbn [map2]. destruct (reqP 0 0) as [|C]; [auto|exfalso; now apply C]. Qed.
Print Assumptions init_gaussian_zero_mean_refuted.
Example init_gaussian_zero_mean_example : gauss_mue (Some 0) [2] [4] = [3].
Proof. rewrite (proj1 (init_gaussian_zero_mean_refuted 2 4)). f_equal. lra. Qed.

(** ** C88 states = None with a random distribution initialises randomly *)
(** It does not: zeros, whatever the distribution. *)
Theorem init_none_ignores_random_refuted : forall i e n tn pool us st, in_states i = None ->
  motor_reset i e n tn pool us st = Ok (st, repeat 0 n).
Proof. intros i e n tn pool us st E. unfold motor_reset. now rewrite E. Qed.
Print Assumptions init_none_ignores_random_refuted.

(** ** C89 The initial rotor flux of an induction motor *)
(** The limits handed out lie on a circle with radius [flux_d_max]. *)
Theorem flux_limit_on_circle : forall m i_nom omega ia ib eps u, exists fd a b,
  flux_limit m i_nom omega ia ib eps u = Ok [a; b] /\ a * a + b * b = fd * fd /\
  fd = flux_d_max m i_nom omega (cos eps * ia + sin eps * ib) (cos eps * ib - sin eps * ia) u.
Proof.
  intros m i_nom omega ia ib eps u. unfold flux_limit. rewrite q_inv_val. cbn [bind item nth_error]. rewrite q_val.
  set (fd := flux_d_max m i_nom omega (cos eps * ia + sin eps * ib) (cos eps * ib - sin eps * ia) u). exists fd, (cos eps * fd - sin eps * 0), (sin eps * fd + cos eps * 0).
  split; [reflexivity|]. split; [|reflexivity]. pose proof (sincos eps) as S. nra.
Qed.
Print Assumptions flux_limit_on_circle.

Lemma rle_true a b : a <= b -> rle a b = true. Proof. intros H. destruct (rleP a b); [reflexivity|contradiction]. Qed.
Lemma rle_false a b : b < a -> rle a b = false. Proof. intros H. destruct (rleP a b); [lra|reflexivity]. Qed.
Definition scim_default : dict R :=
  [("i_salpha"%string, 0); ("i_sbeta"%string, 0); ("psi_ralpha"%string, 0); ("psi_rbeta"%string, 0); ("epsilon"%string, 0)].
Definition scim_env (limits : dict R) : init_env :=
  {| ie_default := scim_default; ie_nominal := []; ie_limits := limits; ie_positions := []; ie_low := [] |}.
(** Acceptance of a fixed initial flux is decided by the global random generator: the
    same initial flux is accepted for one drawn field angle and refused for another. *)
Theorem init_scim_flux_depends_on_chance_refuted : forall m i_nom y ia ib u n tn pool us,
  0 < y -> y <= im_lm m * i_nom -> 0 <= i_nom ->
  let nominal := [("i_salpha"%string, i_nom); ("i_sbeta"%string, i_nom); ("epsilon"%string, PI)] in
  let d := [("i_salpha"%string, 0); ("i_sbeta"%string, 0); ("psi_ralpha"%string, 0); ("psi_rbeta"%string, y); ("epsilon"%string, 0)] in let i := const_init d in
  exists l1 l2, scim_initial_limits m nominal i_nom 0 ia ib (PI / 2) u = Ok l1 /\ scim_initial_limits m nominal i_nom 0 ia ib 0 u = Ok l2 /\
    (exists st', motor_reset i (scim_env l1) n tn pool us (initial_states_new i) = Ok (st', [0; 0; 0; y; 0])) /\
    motor_reset i (scim_env l2) n tn pool us (initial_states_new i) = Err PlainException.
Proof.
  intros m i_nom y ia ib u n tn pool us Hy Hl Hi nominal d i.
  assert (F : forall eps, scim_initial_limits m nominal i_nom 0 ia ib eps u =
     Ok [("i_salpha"%string, i_nom); ("i_sbeta"%string, i_nom); ("epsilon"%string, PI); ("psi_ralpha"%string, Rabs (cos eps * (im_lm m * i_nom))); ("psi_rbeta"%string, Rabs (sin eps * (im_lm m * i_nom)))]).
  { intros eps. unfold scim_initial_limits, flux_limit. rewrite q_inv_val. cbn [bind item nth_error]. rewrite q_val. cbn [bind item nth_error].
    unfold flux_d_max. destruct (reqP 0 0) as [|C]; [|exfalso; now apply C]. do 2 f_equal.
    rewrite !Rmult_0_r, Rminus_0_r, Rplus_0_r. reflexivity. }
  rewrite !F. eexists. eexists. split; [reflexivity|]. split; [reflexivity|].
  rewrite sin_PI2, cos_PI2, sin_0, cos_0.
  set (A1 := Rabs (0 * (im_lm m * i_nom))). set (B1 := Rabs (1 * (im_lm m * i_nom))).
  assert (HA : A1 = 0) by (subst A1; rewrite Rmult_0_l; apply Rabs_R0). assert (HB : B1 = im_lm m * i_nom) by (subst B1; rewrite Rmult_1_l; apply Rabs_pos_eq; lra).
  clearbody A1 B1. pose proof PI_RGT_0 as HP.
  assert (Hin : Rabs i_nom = i_nom) by (apply Rabs_pos_eq; lra). assert (HPa : Rabs PI = PI) by (apply Rabs_pos_eq; lra).
  assert (HA' : Rabs A1 = 0) by (rewrite HA; apply Rabs_R0). assert (HB' : Rabs B1 = im_lm m * i_nom) by (rewrite HB; apply Rabs_pos_eq; lra).
  assert (S : dict_update (dict_update (initial_states_new i) scim_default) d = d) by reflexivity.
  assert (M : forall limits, motor_reset i (scim_env limits) n tn pool us (initial_states_new i) =
     do st' <- (do b0 <- flux_bounds (scim_env limits) (dict_keys d); if all_le (fst b0) (dict_values d) && all_le (dict_values d) (snd b0) then Ok d else Err PlainException); Ok (st', dict_values st')).
  { intros limits. unfold motor_reset. change (in_states i) with (Some d). cbv iota. unfold initialize. change (in_states i) with (Some d). cbv iota zeta.
    change (ie_default (scim_env limits)) with scim_default. rewrite S. change (has_flux (dict_keys d)) with true. cbv iota.
    change (match d with [] => _ | _ :: _ => ?x end) with x. f_equal. destruct (flux_bounds (scim_env limits) (dict_keys d)) as [[lo up]|]; reflexivity. }
  rewrite !M. clear M S. unfold flux_bounds.
  assert (I : forall a b c dd ee, items (dict_keys d) (ie_limits (scim_env [("i_salpha"%string, a); ("i_sbeta"%string, b); ("epsilon"%string, c); ("psi_ralpha"%string, dd); ("psi_rbeta"%string, ee)])) = Ok [a; b; dd; ee; c]) by (intros; reflexivity).
  rewrite !I. cbn [bind map]. change (Nat.eqb (length (dict_keys d)) 5) with true. cbv iota.
  rewrite Hin, HPa, HA', HB'. cbn [bind fst snd map2 dict_values map all_le d]. split.
  - repeat (rewrite rle_true by lra). cbn [andb bind]. eexists. reflexivity.
  - repeat (rewrite rle_true by lra). rewrite (rle_false y 0) by lra. cbn [andb bind]. reflexivity.
Qed.
Print Assumptions init_scim_flux_depends_on_chance_refuted.
Example init_scim_example : exists m i_nom y, 0 < y /\ y <= im_lm m * i_nom /\ 0 <= i_nom.
Proof. exists {| im_p := 2; im_lm := 1; im_lsigs := 1; im_lsigr := 1; im_rs := 1; im_rr := 1 |}, 1, (1/2). cbn. lra. Qed.
