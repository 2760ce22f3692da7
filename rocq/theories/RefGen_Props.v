(** Theorems about the reference generators. *)
From Verif Require Import PyBaseFacts PyDictFacts Utils_Model Solver_Model Solver_Proofs RefGen_Model RefGen_Spec RefGen_Proofs RefGen_Proofs2 RefGen_Proofs3 RefGen_Proofs4.

Local Open Scope string_scope. Local Open Scope list_scope. Local Open Scope R_scope.

(** ** A numpy for the examples: the generator is a counter *)
Definition toy : numpy :=
  {| np_seq := nat; np_gen := nat;
     np_spawn := fun s => (s, S s);
     np_uniform := fun g => (if Nat.even g then 0 else 1 / 2, S g);
     np_normal := fun s n g => (repeat s n, S g);
     np_laplace := fun s n g => (repeat (- s) n, S g);
     np_triangular := fun g => (1 / 2, S g);
     np_below := fun n g => (0%Z, S g);
     np_choice := fun n p g => match n with O => Err ValueError | S _ => Ok (Nat.modulo g n, S g) end |}.
Lemma toy_ok : numpy_ok toy.
Proof.
  constructor; cbn -[Nat.modulo]; intros.
  - destruct (Nat.even g); lra.
  - apply repeat_length.
  - apply repeat_length.
  - lra.
  - lia.
  - destruct n as [|n]; [discriminate|]. injection H as <- _. exact (Nat.mod_upper_bound g (S n) ltac:(lia)).
Qed.
Definition toy_ps : psys :=
  {| p_names := ["omega"; "torque"; "i"]%string; p_nominal := [1; 1; 1]; p_limits := [2; 1; 2]; p_low := [-1; -1; -1]; p_high := [1; 1; 1]; p_tau := 1 / 10 |}.
Lemma toy_ps_ok : psys_ok toy_ps.
Proof.
  split; [repeat constructor; cbn; intuition discriminate|]. split; [|split].
  - intros [|[|[|i]]] x; cbn; intros H; try (injection H as <-; lra). destruct i; discriminate.
  - intros [|[|[|i]]] x; cbn; intros H; try (injection H as <-; lra). destruct i; discriminate.
  - intros [|[|[|i]]] l h; cbn; intros H1 H2; try (injection H1 as <-; injection H2 as <-; lra). destruct i; discriminate.
Qed.
(** A Wiener process for omega next to a constant torque. *)
Definition toy_sub : sub toy :=
  {| s_state := "omega"; s_lens := VNum 2; s_margin := LmNone; s_kind := Wiener (VPair 1 10) None; s_value := 0; s_len := py_int 2; s_k := 0; s_ref := None;
     s_mask := []; s_space := (-1, 1); s_tau := 0; s_seq := (1%nat : np_seq toy); s_gen := (0%nat : np_gen toy) |}.
Definition toy_tree : gen toy := multiple_new [GSub toy_sub; const_new "torque" (1 / 4)].
Lemma toy_sub_built : built (GSub toy_sub).
Proof. apply (built_sub "omega" (VNum 2) LmNone (Wiener (VPair 1 10) None) (0%nat : np_seq toy)); [exact I|reflexivity]. Qed.
Lemma toy_tree_built : built toy_tree.
Proof. apply built_multiple. constructor; [exact toy_sub_built|]. constructor; [apply built_const|constructor]. Qed.

Definition toy_sub1 : sub toy :=
  {| s_state := "omega"; s_lens := VNum 2; s_margin := LmPair (- (1 / 2)) (1 / 2); s_kind := Wiener (VPair 1 10) (Some (- (1 / 2), 1 / 2)); s_value := 0; s_len := py_int 2; s_k := 0; s_ref := None;
     s_mask := [true; false; false]; s_space := (- (1 / 2), 1 / 2); s_tau := 1 / 10; s_seq := (1%nat : np_seq toy); s_gen := (0%nat : np_gen toy) |}.
Definition toy_tree1 : gen toy :=
  GMultiple {| mu_names := mu_names {| mu_names := "omega" :: names_extend [] (NStr "torque"); mu_mask := []; mu_space := ([], []); mu_n := 0 |}%string;
               mu_mask := [true; true; false]; mu_space := ([- (1 / 2); 1 / 4], [1 / 2; 1 / 4]); mu_n := 3 |}
    [GSub toy_sub1; GConst "torque" (1 / 4) [false; true; false]].
Lemma toy_names_nodup : NoDup (p_names toy_ps).
Proof. apply toy_ps_ok. Qed.
Lemma toy_mask_omega : state_mask "omega" (p_names toy_ps) = Ok [true; false; false].
Proof. rewrite (state_mask_ok _ _ toy_names_nodup); [reflexivity|cbn; auto]. Qed.
Lemma toy_mask_torque : state_mask "torque" (p_names toy_ps) = Ok [false; true; false].
Proof. rewrite (state_mask_ok _ _ toy_names_nodup); [reflexivity|cbn; auto]. Qed.
Lemma toy_sub_announced : sub_modules toy_ps toy_sub = Ok toy_sub1.
Proof.
  unfold sub_modules. change (s_state toy_sub) with "omega"%string. rewrite toy_mask_omega. cbn -[Rdiv]. unfold toy_sub1. f_equal.
  replace (1 / 2 * -1) with (- (1 / 2)) by lra. replace (1 / 2 * 1) with (1 / 2) by lra. reflexivity.
Qed.
Lemma toy_tree_announced : set_modules toy_ps toy_tree = Ok toy_tree1.
Proof.
  unfold toy_tree, multiple_new. cbn [set_modules]. rewrite !each_cons. cbn [set_modules]. rewrite toy_sub_announced. cbn [bind const_new set_modules].
  change (lower "torque") with "torque"%string. rewrite toy_mask_torque. reflexivity.
Qed.
Lemma toy_tree_usable : usable toy_tree.
Proof. constructor. constructor; [constructor; cbn; lra|]. constructor; [constructor|constructor]. Qed.

(** ** C04 The reference of a step is the reference observed before *)
Theorem reference_is_previous_observation :
  forall N (g0 g1 g2 g3 : gen N) ps ops o obs,
  built g0 -> NoDup (p_names ps) -> set_modules ps g0 = Ok g1 -> run ops g1 = Ok g2 -> shows o -> step o g2 = Ok (g3, obs) ->
  exists g4 r, get_reference g3 = Ok (g4, r) /\ reference_of (p_names ps) (ref_states g3) obs r.
Proof.
  intros N g0 g1 g2 g3 ps ops o obs Hb Hn Hm Hr Ho Hs. pose proof (set_modules_wf ps g0 Hn g1 Hb Hm) as W1. destruct (run_keeps _ _ _ _ W1 Hr) as (W2 & _).
  destruct (step_keeps _ _ _ _ _ W2 Hs) as (W3 & _ & _ & _ & K). destruct (K Ho) as [-> _]. destruct (get_reference_ok _ _ W3) as (g4 & r & E & R). exists g4, r. split; [exact E|].
  destruct R as (_ & _ & _ & _ & _ & _ & ->). destruct (wf_states _ _ W3) as (_ & D & _ & L). now apply placed_reference.
Qed.
Print Assumptions reference_is_previous_observation.

(** ** C49 Generators never raise *)
Theorem generators_never_raise :
  forall N (g0 g1 : gen N) ps i ops, numpy_ok N ->
  built g0 -> usable g0 -> NoDup (p_names ps) -> set_modules ps g0 = Ok g1 ->
  Forall (fun o => match o with Reset (Some r) => length r = length (p_names ps) | _ => True end) (Reset i :: ops) ->
  exists g2, run (Reset i :: ops) g1 = Ok g2.
Proof.
  intros N g0 g1 ps i ops HN Hb Hu Hn Hm Ho. pose proof (set_modules_wf ps g0 Hn g1 Hb Hm) as W1. pose proof (set_modules_live ps g0 g1 Hb Hu Hm) as L1.
  inversion Ho as [|? ? H1 H2]; subst. assert (Hi : fits (p_names ps) i) by (destruct i; [exact H1|exact I]).
  destruct (reset_ok HN (p_names ps) g1 i W1 L1 Hi) as (g2 & rf & o & E & L2 & R2 & _). cbn [run step]. rewrite E. cbn [bind fst snd].
  apply (run_ok HN (p_names ps)); [exact (proj1 (proj1 (proj2 (proj2 (reset_keeps (p_names ps) _ _ _ _ _ E))) W1))|exact L2|exact R2|].
  clear - H2. induction H2 as [|o l Ho Hl IH]; constructor; [|exact IH]. destruct o as [[r|]| |]; cbn in *; auto.
Qed.
Print Assumptions generators_never_raise.
Example generators_example : exists g2, run [Reset None; GetRef; GetObs; GetRef; GetObs; GetObs; Reset (Some [1; 2; 3]); GetObs] toy_tree1 = Ok g2.
Proof. apply (generators_never_raise toy toy_tree toy_tree1 toy_ps); [exact toy_ok|exact toy_tree_built|exact toy_tree_usable|exact toy_names_nodup|exact toy_tree_announced|repeat constructor]. Qed.
Example reference_example : exists g2 g3 obs g4 r, run [Reset None; GetRef; GetObs; GetRef] toy_tree1 = Ok g2 /\ step GetObs g2 = Ok (g3, obs) /\ get_reference g3 = Ok (g4, r) /\
  reference_of ["omega"; "torque"; "i"]%string ["omega"; "torque"]%string obs r.
Proof.
  destruct (generators_never_raise toy toy_tree toy_tree1 toy_ps None [GetRef; GetObs; GetRef; GetObs] toy_ok toy_tree_built toy_tree_usable toy_names_nodup toy_tree_announced ltac:(repeat constructor)) as [gx Hx].
  change [Reset None; GetRef; GetObs; GetRef; GetObs] with ([Reset None; GetRef; GetObs; GetRef] ++ [GetObs]) in Hx.
  assert (Hrun : forall (l1 l2 : list op) (g : gen toy) gx, run (l1 ++ l2) g = Ok gx -> exists g', run l1 g = Ok g' /\ run l2 g' = Ok gx).
  { induction l1 as [|o l1 IH]; intros l2 g gy H; [exists g; auto|]. cbn [app run] in *. destruct (step o g) as [v|] eqn:E; cbn [bind] in *; [|discriminate]. exact (IH _ _ _ H). }
  destruct (Hrun [Reset None; GetRef; GetObs; GetRef] [GetObs] toy_tree1 gx Hx) as (g2 & R1 & R2). cbn [run] in R2. destruct (step GetObs g2) as [[g3 obs]|] eqn:E; cbn [bind fst] in R2; [|discriminate].
  destruct (reference_is_previous_observation toy toy_tree toy_tree1 g2 g3 toy_ps [Reset None; GetRef; GetObs; GetRef] GetObs obs toy_tree_built toy_names_nodup toy_tree_announced R1 I E) as (g4 & r & E4 & Hr).
  exists g2, g3, obs, g4, r. split; [exact R1|]. split; [exact E|]. split; [exact E4|].
  assert (Es : same_tree toy_tree1 g3) by (eapply same_tree_trans; [exact (run_same _ _ _ R1)|exact (step_same _ _ _ _ E)]).
  assert (En : ref_states g3 = ["omega"; "torque"]%string).
  { inversion Es as [| | | |m l1 l2 F]; subst. inversion F as [|x y lx ly A F2]; subst. inversion F2 as [|x2 y2 lx2 ly2 A2 F3]; subst. inversion F3; subst. inversion A as [| |s1 s2 C| |]; subst. inversion A2; subst. destruct C as (C & _). cbn. rewrite C. reflexivity. }
  rewrite En in Hr. exact Hr.
Qed.

(** ** C48 References stay inside the announced interval *)
Theorem references_in_space :
  forall N (g0 g1 g2 g3 : gen N) ps ops o obs,
  built g0 -> NoDup (p_names ps) -> set_modules ps g0 = Ok g1 -> margins_ordered g1 -> run ops g1 = Ok g2 -> shows o -> step o g2 = Ok (g3, obs) ->
  inside (g_space g1) obs /\ g_space g3 = g_space g1.
Proof.
  intros N g0 g1 g2 g3 ps ops o obs Hb Hn Hm Ho Hr Hsh Hs. pose proof (set_modules_wf ps g0 Hn g1 Hb Hm) as W1. pose proof (set_modules_boxed ps g0 g1 Hb Hm Ho) as B1.
  destruct (run_keeps _ _ _ _ W1 Hr) as (W2 & _ & E2 & B2). destruct (step_keeps _ _ _ _ _ W2 Hs) as (_ & _ & E3 & _ & K). destruct (K Hsh) as [_ K2]. split; [|congruence]. rewrite <- E2. apply K2. auto.
Qed.
Print Assumptions references_in_space.

Lemma pm_switched_inv {N} w (subs : list (gen N)) : plain_margins (GSwitched w subs) -> Forall plain_margins subs.
Proof. intros H. inversion H; subst; auto. Qed.
Lemma pm_multiple_inv {N} m (subs : list (gen N)) : plain_margins (GMultiple m subs) -> Forall plain_margins subs.
Proof. intros H. inversion H; subst; auto. Qed.
Theorem plain_margins_are_ordered :
  forall N ps (g0 g1 : gen N), psys_ok ps -> plain_margins g0 -> set_modules ps g0 = Ok g1 -> margins_ordered g1.
Proof.
  intros N ps g0 g1 (Hn & Hnom & Hlim & Hlh). revert g1. induction g0 as [s v m|n|s|w subs IH|m subs IH] using gen_tree_ind; intros g1 Hp H; cbn [set_modules] in H.
  - bindh H. apply Ok_inj in H. subst g1. constructor.
  - apply Ok_inj in H. subst g1. constructor.
  - inversion Hp as [| |s0 P1| |]; subst. bindh H. apply Ok_inj in H. subst g1. constructor. unfold sub_modules in E. bindh E. destruct (state_mask_spec _ _ _ Hn E0) as [Hin ->]. bindh E. apply Ok_inj in E. subst v. cbn [s_space].
    pose proof (fun x => @pick_spec R (s_state s) (p_names ps) (p_high ps) x Hn Hin) as PH. pose proof (fun x => @pick_spec R (s_state s) (p_names ps) (p_low ps) x Hn Hin) as PL.
    assert (Hbox : forall lo hi, pick (map (String.eqb (lower (s_state s))) (p_names ps)) (p_high ps) = Ok hi -> pick (map (String.eqb (lower (s_state s))) (p_names ps)) (p_low ps) = Ok lo -> lo <= hi).
    { intros lo hi H1 H2. destruct (PH _ H1) as (i & I1 & I2). destruct (PL _ H2) as (j & J1 & J2). assert (i = j); [|subst; eauto].
      apply (proj1 (NoDup_nth_error (p_names ps)) Hn); [apply nth_error_Some; congruence|congruence]. }
    destruct (s_margin s) as [|x|a b|]; cbn in P1; try contradiction.
    + bindh E1. bindh E1. bindh E1. bindh E1. apply Ok_inj in E1. rewrite <- E1. cbn [fst snd]. specialize (Hbox _ _ eq_refl eq_refl).
      destruct (pick_spec _ _ _ _ Hn Hin E) as (i & _ & I2). destruct (pick_spec _ _ _ _ Hn Hin E2) as (j & _ & J2). apply Hnom in I2. apply Hlim in J2.
      apply Rmult_le_compat_l; [|exact Hbox]. apply Rmult_le_pos; [lra|]. left. now apply Rinv_0_lt_compat.
    + bindh E1. bindh E1. apply Ok_inj in E1. rewrite <- E1. cbn [fst snd]. apply Rmult_le_compat_l; [exact P1|]. exact (Hbox _ _ eq_refl eq_refl).
  - pose proof (pm_switched_inv _ _ Hp) as P1. bindh H. destruct v as [subs' u]. cbn [fst] in H. apply each_modules in E. bindh H. bindh H. destruct subs' as [|x0 l] eqn:Es; [discriminate|]. rewrite <- Es in *. bindh H. apply Ok_inj in H. subst g1. constructor.
    clear - E IH P1. induction E as [|x y l1 l2 Hxy HF IHf]; [constructor|]. inversion IH; subst; inversion P1; subst. constructor; auto.
  - pose proof (pm_multiple_inv _ _ Hp) as P1. bindh H. destruct v as [subs' u]. cbn [fst] in H. apply each_modules in E. destruct subs' as [|x0 l] eqn:Es; [discriminate|]. rewrite <- Es in *. bindh H. apply Ok_inj in H. subst g1. constructor.
    clear - E IH P1. induction E as [|x y l1 l2 Hxy HF IHf]; [constructor|]. inversion IH; subst; inversion P1; subst. constructor; auto.
Qed.
Print Assumptions plain_margins_are_ordered.
Example plain_example : psys_ok toy_ps /\ plain_margins toy_tree /\ margins_ordered toy_tree1.
Proof.
  assert (H : plain_margins toy_tree) by (constructor; constructor; [constructor; exact I|constructor; [constructor|constructor]]).
  split; [exact toy_ps_ok|]. split; [exact H|]. exact (plain_margins_are_ordered toy toy_ps toy_tree toy_tree1 toy_ps_ok H toy_tree_announced).
Qed.

(** ** C49 Sub-episodes *)
(** From a reset on, the observations are the drawn sub-episodes one after the other: a new
    one is drawn exactly when the previous one is used up, and all have lengths in the
    configured range. *)
Theorem sub_episodes_in_sequence :
  forall N (s s1 s2 : sub N) init rf v n out, numpy_ok N -> lens_ok (s_lens s) ->
  sub_reset init s = Ok (s1, (rf, [v])) -> play s1 n s2 out ->
  exists v0 es g, rf = put_masked (s_mask s) v0 /\
    episodes s v0 (fst (np_spawn N (s_seq s))) es g /\ Forall (fun e => in_lens (s_lens s) (Z.of_nat (length e))) es /\
    v :: out = firstn (S n) (concat es) /\ (length (concat (removelast es)) < S n <= length (concat es))%nat.
Proof.
  intros N s s1 s2 init rf v n out HN HL H Hp. destruct (sub_reset_inv _ _ _ _ _ H) as (v0 & seq & g0 & Es & Ho & ->). set (sr := sub_with s v0 (-1) (s_k s) (s_ref s) seq g0) in *.
  assert (Hplay : play sr (S n) s2 (v :: out)) by (econstructor; eassumption).
  destruct (play_episodes HN _ _ _ _ Hplay []) as (es & g & H1 & H2 & H3 & H4); [right; split; [cbn; lia|reflexivity]|]. cbn [app last] in *.
  assert (Hsame : same_config s sr) by (repeat split). exists v0, es, g. split; [reflexivity|]. rewrite Es. cbn [fst].
  split; [exact (episodes_same _ _ _ _ _ _ Hsame H1)|]. split; [exact (episodes_lengths HN s v0 g0 es g HL (episodes_same _ _ _ _ _ _ Hsame H1))|]. split; [exact H2|].
  split; [|exact H3]. apply H4. intros ->. cbn in H3. lia.
Qed.
Print Assumptions sub_episodes_in_sequence.
Example sub_episodes_example : exists s1 rf v s2 out, sub_reset None toy_sub1 = Ok (s1, (rf, [v])) /\ play s1 4 s2 out /\ lens_ok (s_lens toy_sub1).
Proof.
  assert (Hlive : sub_live toy_sub1) by (split; [cbn; lra|]; split; [cbn; split; [discriminate|eauto]|cbn; eauto]).
  destruct (sub_reset_ok toy_ok (p_names toy_ps) None toy_sub1 Hlive ltac:(cbn; auto) eq_refl I) as (s1 & rf & v & E & Hr).
  assert (Hp : forall n s, sub_live s -> sub_ready s -> exists s2 out, @play toy s n s2 out).
  { induction n as [|n IH]; intros s L R; [do 2 eexists; constructor|]. destruct (sub_obs_ok toy_ok s L R) as (s' & x & Ex & R'). destruct (sub_obs_static _ _ _ Ex) as [_ Hs].
    destruct (IH s' (sub_live_same _ _ Hs L) R') as (s2 & out & Hp). do 2 eexists. econstructor; eassumption. }
  destruct (sub_reset_static _ _ _ _ _ E) as [_ Hs]. destruct (Hp 4%nat s1 (sub_live_same _ _ Hs Hlive) Hr) as (s2 & out & Hpl). exists s1, rf, v, s2, out. split; [exact E|]. split; [exact Hpl|]. cbn. lra.
Qed.
