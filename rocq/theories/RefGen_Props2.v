(** More theorems about the reference generators: margins, combination, switching, names. *)
From Verif Require Import PyBaseFacts PyDictFacts Utils_Model Solver_Model Solver_Proofs RefGen_Model RefGen_Spec RefGen_Proofs RefGen_Proofs2 RefGen_Proofs3 RefGen_Proofs4 RefGen_Props.
Local Open Scope string_scope. Local Open Scope list_scope. Local Open Scope R_scope.

(** ** C50 Margins given as a pair *)
(** The announced ends of the state [nm]. *)
Definition ends (ps : psys) (nm : string) (lo hi : R) : Prop :=
  NoDup (p_names ps) /\ length (p_low ps) = length (p_names ps) /\ length (p_high ps) = length (p_names ps) /\
  exists i, nth_error (p_names ps) i = Some (lower nm) /\ nth_error (p_low ps) i = Some lo /\ nth_error (p_high ps) i = Some hi.
Lemma pick_at {A} ps nm (l : list A) i x : NoDup (p_names ps) -> length l = length (p_names ps) -> nth_error (p_names ps) i = Some (lower nm) -> nth_error l i = Some x ->
  pick (map (String.eqb (lower nm)) (p_names ps)) l = Ok x.
Proof.
  intros Hn Hl H1 H2. destruct (pick_ok nm (p_names ps) l (nth_error_In _ _ H1) Hl) as [y Hy]. rewrite Hy. destruct (pick_spec _ _ _ _ Hn (nth_error_In _ _ H1) Hy) as (j & J1 & J2).
  assert (i = j) by (apply (proj1 (NoDup_nth_error (p_names ps)) Hn); [apply nth_error_Some; congruence|congruence]). subst. congruence.
Qed.
(** The lower factor is multiplied with the lower end of the state space. *)
Theorem tuple_margin_interval :
  forall N ps (s : sub N) a b lo hi, ends ps (s_state s) lo hi -> s_margin s = LmPair a b ->
  exists s', sub_modules ps s = Ok s' /\ s_space s' = (a * lo, b * hi) /\ s_margin s' = LmPair (a * lo) (b * hi).
Proof.
  intros N ps s a b lo hi (Hn & L1 & L2 & i & H1 & H2 & H3) Hm. unfold sub_modules. rewrite (state_mask_ok _ _ Hn (nth_error_In _ _ H1)). cbn [bind]. rewrite Hm.
  rewrite (pick_at ps (s_state s) _ i lo Hn L1 H1 H2). cbn [bind]. rewrite (pick_at ps (s_state s) _ i hi Hn L2 H1 H3). cbn [bind]. eexists. split; [reflexivity|]. cbn. auto.
Qed.
Print Assumptions tuple_margin_interval.
Example tuple_margin_example : ends toy_ps "Omega" (-1) 1.
Proof. split; [exact toy_names_nodup|]. split; [reflexivity|]. split; [reflexivity|]. exists 0%nat. auto. Qed.

Definition announce_sub {N} (ps : psys) (s : sub N) : res (gen N) := set_modules ps (GSub s).
(** A symmetric margin [(-m, m)] on a state that ranges over [-1, 1] fixes the reference to
    [m]: whatever is drawn, every observation is [m]. *)
Theorem symmetric_tuple_margin_refuted :
  forall N ps (s : sub N) m g1 ops g2 o g3 obs,
  built (GSub s) -> ends ps (s_state s) (-1) 1 -> s_margin s = LmPair (- m) m ->
  set_modules ps (GSub s) = Ok g1 -> run ops g1 = Ok g2 -> shows o -> step o g2 = Ok (g3, obs) -> obs = [m].
Proof.
  intros N ps s m g1 ops g2 o g3 obs Hb He Hm Hset Hr Hsh Hs. pose proof (proj1 He) as Hn. destruct (tuple_margin_interval N ps s (- m) m (-1) 1 He Hm) as (s' & E & Sp & _).
  cbn [set_modules] in Hset. rewrite E in Hset. cbn [bind] in Hset. apply Ok_inj in Hset. subst g1.
  assert (Hset : set_modules ps (GSub s) = Ok (GSub s')) by (cbn [set_modules]; rewrite E; reflexivity).
  destruct (references_in_space N (GSub s) (GSub s') g2 g3 ps ops o obs Hb Hn Hset ltac:(constructor; rewrite Sp; cbn; lra) Hr Hsh Hs) as [(I1 & I2 & I3) _]. cbn [g_space fst snd] in *. rewrite Sp in I3. cbn [fst snd] in I3.
  destruct obs as [|v [|w obs]]; cbn in I1; try discriminate. specialize (I3 0%nat _ _ _ eq_refl eq_refl eq_refl). f_equal. lra.
Qed.
Print Assumptions symmetric_tuple_margin_refuted.
Definition toy_tuple : sub toy :=
  {| s_state := "omega"; s_lens := VNum 2; s_margin := LmPair (- (1)) 1; s_kind := Laplace (VPair 1 10); s_value := 0; s_len := py_int 2; s_k := 0; s_ref := None;
     s_mask := []; s_space := (-1, 1); s_tau := 0; s_seq := (1%nat : np_seq toy); s_gen := (0%nat : np_gen toy) |}.
Example symmetric_example : exists g1 g2, set_modules toy_ps (GSub toy_tuple) = Ok g1 /\ run [Reset None; GetRef; GetObs] g1 = Ok g2.
Proof.
  assert (Hb : built (GSub toy_tuple)) by (apply (built_sub "omega" (VNum 2) (LmPair (- (1)) 1) (Laplace (VPair 1 10)) (0%nat : np_seq toy)); [exact I|reflexivity]).
  destruct (tuple_margin_interval toy toy_ps toy_tuple (- (1)) 1 (-1) 1 tuple_margin_example eq_refl) as (s' & E & _).
  assert (E2 : set_modules toy_ps (GSub toy_tuple) = Ok (GSub s')) by (cbn [set_modules]; rewrite E; reflexivity).
  destruct (generators_never_raise toy (GSub toy_tuple) (GSub s') toy_ps None [GetRef; GetObs] toy_ok Hb ltac:(constructor; cbn; lra) toy_names_nodup E2 ltac:(repeat constructor)) as [g2 Hg]. eauto.
Qed.
(** Announcing a generator a second time applies the factors again: an interval
    [[-m, m]] becomes the single point [m]. *)
Theorem announced_twice_refuted :
  forall N ps (s s1 : sub N) m, ends ps (s_state s) (-1) 1 -> sub_modules ps s = Ok s1 -> s_space s1 = (- m, m) ->
  exists s2, sub_modules ps s1 = Ok s2 /\ s_space s2 = (m, m).
Proof.
  intros N ps s s1 m He H Hsp.
  assert (Hm : s_margin s1 = LmPair (- m) m /\ s_state s1 = s_state s).
  { unfold sub_modules in H. bindh H. bindh H. apply Ok_inj in H. subst s1. cbn in *. now rewrite Hsp. }
  destruct Hm as [Hm Hst]. destruct (tuple_margin_interval N ps s1 (- m) m (-1) 1) as (s2 & E & Sp & _); [now rewrite Hst|exact Hm|]. exists s2. split; [exact E|]. rewrite Sp. f_equal; lra.
Qed.
Print Assumptions announced_twice_refuted.
Example announced_twice_example : sub_modules toy_ps toy_sub = Ok toy_sub1 /\ s_space toy_sub1 = (- (1 / 2), 1 / 2) /\ ends toy_ps (s_state toy_sub) (-1) 1.
Proof. split; [exact toy_sub_announced|]. split; [reflexivity|]. exact tuple_margin_example. Qed.

(** ** C51 Combined generators *)
Theorem multiple_refuses_overlap :
  forall N ps (subs subs' : list (gen N)), NoDup (p_names ps) -> Forall built subs -> subs <> [] ->
  Forall2 (fun x y => set_modules ps x = Ok y) subs subs' ->
  (NoDup (flat_map ref_states subs') -> exists m, set_modules ps (multiple_new subs) = Ok (GMultiple m subs')) /\
  (~ NoDup (flat_map ref_states subs') -> set_modules ps (multiple_new subs) = Err AssertionError).
Proof.
  intros N ps subs subs' Hn Hb Hne HF. unfold multiple_new. cbn [set_modules]. destruct (each_modules_intro _ _ _ HF) as [u ->]. cbn [bind fst].
  assert (Hwf : Forall (wf (p_names ps)) subs') by (clear Hne; induction HF as [|x y l l' Hxy HF IH]; [constructor|]; inversion Hb; subst; constructor; [eapply set_modules_wf; eassumption|auto]).
  destruct subs' as [|x0 l] eqn:Es; [inversion HF; subst; congruence|]. rewrite <- Es in *. rewrite (count_overlap _ _ Hwf), count_spec.
  assert (H : forallb (fun c => Nat.ltb c 2) (map (fun nm => length (filter (str_in nm) (map ref_states subs'))) (p_names ps)) = true <-> NoDup (flat_map ref_states subs')).
  { apply count_two; [intros x Hx; rewrite Forall_forall in Hwf; now apply (wf_states _ _ (Hwf x Hx))|]. intros nm Hi. apply in_flat_map in Hi. destruct Hi as (x & Hx & Hi). rewrite Forall_forall in Hwf. destruct (wf_states _ _ (Hwf x Hx)) as (_ & _ & Hin & _). auto. }
  destruct (forallb _ _) eqn:E; cbn [py_assert bind].
  - split; [intros _; eexists; reflexivity|]. intros Hno. exfalso. apply Hno. now apply H.
  - split; [|reflexivity]. intros Hd. apply H in Hd. congruence.
Qed.
Print Assumptions multiple_refuses_overlap.
Example overlap_example : set_modules toy_ps (multiple_new [GSub toy_sub; const_new "Omega" 1]) = Err AssertionError /\ exists m l, set_modules toy_ps (multiple_new [GSub toy_sub; const_new "torque" 1]) = Ok (GMultiple m l).
Proof.
  assert (E : forall s m, lower s = s -> state_mask s (p_names toy_ps) = Ok m -> Forall2 (fun x y => set_modules toy_ps x = Ok y) [GSub toy_sub; GConst s 1 []] [GSub toy_sub1; GConst s 1 m]).
  { intros s m Hs Hm. constructor; [cbn [set_modules]; rewrite toy_sub_announced; reflexivity|]. constructor; [|constructor]. cbn [set_modules]. rewrite Hm. reflexivity. }
  split.
  - apply (proj2 (multiple_refuses_overlap toy toy_ps [GSub toy_sub; const_new "Omega" 1] [GSub toy_sub1; GConst "omega" 1 [true; false; false]] toy_names_nodup
      ltac:(constructor; [exact toy_sub_built|constructor; [apply built_const|constructor]]) ltac:(discriminate) (E "omega" _ eq_refl toy_mask_omega))).
    cbn. intros H. inversion H as [|? ? A B]; subst. apply A. now left.
  - destruct (proj1 (multiple_refuses_overlap toy toy_ps [GSub toy_sub; const_new "torque" 1] [GSub toy_sub1; GConst "torque" 1 [false; true; false]] toy_names_nodup
      ltac:(constructor; [exact toy_sub_built|constructor; [apply built_const|constructor]]) ltac:(discriminate) (E "torque" _ eq_refl toy_mask_torque))) as [m Hm]; [|eauto].
    cbn. repeat constructor; cbn; intuition discriminate.
Qed.

(** Every operation acts on the parts one after the other; the observation is their
    concatenation. *)
Theorem multiple_concatenates :
  forall N m (subs : list (gen N)) o g' obs, shows o -> step o (GMultiple m subs) = Ok (g', obs) ->
  exists ps, Forall2 (fun x p => step o x = Ok p) subs ps /\ g' = GMultiple m (map fst ps) /\ obs = concat (map snd ps).
Proof.
  intros N m subs o g' obs Ho H. destruct o as [i| |]; [|contradiction|]; cbn [step reset get_obs] in H.
  - bindh H. bindh E. destruct v0 as [subs' rs]. bindh E. apply Ok_inj in E. subst v. apply Ok_inj in H. injection H as <- <-. cbn [fst snd]. destruct (each_inv _ _ _ _ E0) as (ps & -> & -> & HF).
    exists (map (fun p => (fst p, snd (snd p))) ps). split; [|split; [rewrite map_map; reflexivity|rewrite !map_map; reflexivity]].
    clear - HF. induction HF as [|x p l ps Hx HF IH]; cbn; constructor; [|exact IH]. cbn [step]. rewrite Hx. reflexivity.
  - bindh H. destruct v as [subs' rs]. apply Ok_inj in H. injection H as <- <-. cbn [fst snd]. destruct (each_inv _ _ _ _ E) as (ps & -> & -> & HF). exists ps. auto.
Qed.
Print Assumptions multiple_concatenates.
Example multiple_example : exists g2 obs g', run [Reset None] toy_tree1 = Ok g2 /\ step GetObs g2 = Ok (g', obs) /\ length obs = 2%nat.
Proof.
  destruct (generators_never_raise toy toy_tree toy_tree1 toy_ps None [GetObs] toy_ok toy_tree_built toy_tree_usable toy_names_nodup toy_tree_announced ltac:(repeat constructor)) as [gx Hx].
  cbn [run] in Hx. destruct (step (Reset None) toy_tree1) as [[g2 o2]|] eqn:E2; cbn [bind fst] in Hx; [|discriminate]. destruct (step GetObs g2) as [[g' obs]|] eqn:E3; cbn [bind fst] in Hx; [|discriminate].
  exists g2, obs, g'. split; [cbn [run]; rewrite E2; reflexivity|]. split; [exact E3|].
  destruct (references_in_space toy toy_tree toy_tree1 g2 g' toy_ps [Reset None] GetObs obs toy_tree_built toy_names_nodup toy_tree_announced (proj2 (proj2 plain_example)) ltac:(cbn [run]; rewrite E2; reflexivity) I E3) as [(H & _) _].
  cbn in H. congruence.
Qed.

(** ** C52 Switched generators *)
(** Between switches the drawn number of observations passes; the first super-episode has
    one observation more, that of the reset. *)
Theorem super_episode_schedule :
  forall N w (subs : list (gen N)) init g1 r n g2 out, numpy_ok N ->
  reset init (GSwitched w subs) = Ok (g1, r) -> replay g1 n g2 out ->
  exists L ls, Forall (fun l => (fst (sw_range w) <= l < snd (sw_range w))%Z) (L :: ls) /\
    let plan ls := repeat false (Z.to_nat L) ++ super_schedule ls in
    out = firstn n (plan ls) /\ (n <= length (plan ls))%nat /\ (ls <> [] -> (length (plan (removelast ls)) < n)%nat).
Proof.
  intros N w subs init g1 r n g2 out HN H Hp. cbn [reset] in H. destruct (np_spawn N (sw_seq w)) as [gn seq]. bindh H. destruct (sw_draw_inv HN _ _ _ E) as (L & c & g & -> & HL & Hc). bindh H. apply Ok_inj in H. injection H as <- <-.
  destruct (replay_schedule HN _ _ _ _ Hp _ _ eq_refl) as (ls & I1 & I2 & I3 & I4). cbn [sw_len sw_k sw_with sw_range] in *. rewrite Z.sub_0_r in *. exists L, ls. split; [constructor; assumption|]. auto.
Qed.
Print Assumptions super_episode_schedule.

Definition toy_switched : res (gen toy) := switched_new [GSub toy_sub; GSub toy_tuple] None (2%Z, 3%Z) (5%nat : np_seq toy).
Lemma toy_switched_ok : exists w, toy_switched = Ok (GSwitched w [GSub toy_sub; GSub toy_tuple]) /\ sw_range w = (2%Z, 3%Z).
Proof. eexists. split; reflexivity. Qed.
Lemma toy_switched_run : exists w0 g1, built (GSwitched w0 [GSub toy_sub; GSub toy_tuple]) /\ sw_range w0 = (2%Z, 3%Z) /\ set_modules toy_ps (GSwitched w0 [GSub toy_sub; GSub toy_tuple]) = Ok g1 /\
  forall ops, Forall (fun o => match o with Reset (Some _) => False | _ => True end) ops -> exists g2, run (Reset None :: ops) g1 = Ok g2.
Proof.
  destruct toy_switched_ok as (w0 & E & Hr). exists w0.
  assert (Ht : built (GSub toy_tuple)) by (apply (built_sub "omega" (VNum 2) (LmPair (- (1)) 1) (Laplace (VPair 1 10)) (0%nat : np_seq toy)); [exact I|reflexivity]).
  assert (Hb : built (GSwitched w0 [GSub toy_sub; GSub toy_tuple])) by (eapply built_switched; [|exact E]; constructor; [exact toy_sub_built|constructor; [exact Ht|constructor]]).
  destruct (tuple_margin_interval toy toy_ps toy_tuple (- (1)) 1 (-1) 1 tuple_margin_example eq_refl) as (s' & Es & Sp & _).
  assert (Hm : s_mask s' = [true; false; false]) by (unfold sub_modules in Es; change (s_state toy_tuple) with "omega" in Es; rewrite toy_mask_omega in Es; cbn [bind] in Es; bindh Es; apply Ok_inj in Es; now subst s').
  assert (Hset : exists g1, set_modules toy_ps (GSwitched w0 [GSub toy_sub; GSub toy_tuple]) = Ok g1).
  { cbn [set_modules]. rewrite !each_cons. cbn [set_modules]. rewrite toy_sub_announced, Es. cbn [bind each fst snd map g_space]. rewrite Sp. cbn [columnwise fst snd bind length Nat.eqb s_space toy_sub1 map2 forallb g_mask s_mask]. rewrite Hm. cbn. eauto. }
  destruct Hset as [g1 Hset]. exists g1. split; [exact Hb|]. split; [exact Hr|]. split; [exact Hset|]. intros ops Hops. apply (generators_never_raise toy (GSwitched w0 [GSub toy_sub; GSub toy_tuple]) g1 toy_ps None ops toy_ok Hb); [|exact toy_names_nodup|exact Hset|].
  - constructor; [rewrite Hr; cbn; lia| |constructor; [constructor; cbn; lra|constructor; [constructor; cbn; lra|constructor]]]. intros g. cbn. eauto.
  - constructor; [exact I|]. clear - Hops. induction Hops as [|o l Ho Hl IH]; constructor; [|exact IH]. destruct o as [[r|]| |]; auto; contradiction.
Qed.
Lemma run_app {N} (l1 l2 : list op) : forall (g gx : gen N), run (l1 ++ l2) g = Ok gx -> exists g', run l1 g = Ok g' /\ run l2 g' = Ok gx.
Proof. induction l1 as [|o l1 IH]; intros g gx H; [exists g; auto|]. cbn [app run] in *. destruct (step o g) as [v|] eqn:E; cbn [bind] in *; [|discriminate]. exact (IH _ _ H). Qed.
Lemma run_replay {N} n : forall w (subs : list (gen N)) gx, run (concat (repeat [GetRef; GetObs] n)) (GSwitched w subs) = Ok gx -> exists out, replay (GSwitched w subs) n gx out.
Proof.
  induction n as [|n IH]; intros w subs gx H; cbn [repeat concat run app] in H; [apply Ok_inj in H; subst; eexists; constructor|].
  cbn [step] in H. destruct (get_reference (GSwitched w subs)) as [[g1 r]|] eqn:E1; cbn [bind fst] in H; [|discriminate]. destruct (get_obs g1) as [[g2 o]|] eqn:E2; cbn [bind fst] in H; [|discriminate].
  pose proof (get_reference_same _ _ _ E1) as S1. inversion S1 as [| | |w1 w2 l1 l2 A A'|]; subst. pose proof (get_obs_same _ _ _ E2) as S2. inversion S2 as [| | |w3 w4 l3 l4 B B'|]; subst. destruct (IH _ _ _ H) as [out Hout].
  eexists. eapply replay_S; [exact E1|reflexivity|exact E2|exact Hout].
Qed.
Example super_episode_example : exists (w : switched toy) subs g1 r g2 out, numpy_ok toy /\ reset None (GSwitched w subs) = Ok (g1, r) /\ replay g1 7 g2 out /\ sw_range w = (2%Z, 3%Z).
Proof.
  destruct toy_switched_run as (w0 & g1 & Hb & Hr & Hset & Hrun). destruct (Hrun (concat (repeat [GetRef; GetObs] 7)) ltac:(repeat constructor)) as [gx Hx].
  destruct (switched_space _ _ _ _ Hset) as (w1 & subs1 & -> & E1 & _). cbn [run step] in Hx. destruct (reset None (GSwitched w1 subs1)) as [[g2 r]|] eqn:E2; cbn [bind fst snd] in Hx; [|discriminate].
  pose proof (reset_same _ _ _ _ E2) as S1. inversion S1 as [| | |w3 w4 l3 l4 B B'|]; subst. destruct (run_replay 7 _ _ _ Hx) as [out Hout].
  exists w1, subs1, (GSwitched w4 l4), r, gx, out. split; [exact toy_ok|]. split; [exact E2|]. split; [exact Hout|]. congruence.
Qed.

(** The space of the switched generator contains the spaces of its parts. *)
Theorem switched_space_contains :
  forall N ps w (subs : list (gen N)) g1, set_modules ps (GSwitched w subs) = Ok g1 ->
  exists w' subs', g1 = GSwitched w' subs' /\ forall x o, In x subs' -> inside (g_space x) o -> inside (g_space g1) o.
Proof. intros N ps w subs g1 H. destruct (switched_space ps w subs g1 H) as (w' & subs' & E & _ & Hx). eauto. Qed.
Print Assumptions switched_space_contains.
Example switched_space_example : exists w g1, set_modules toy_ps (GSwitched w [GSub toy_sub; GSub toy_tuple]) = Ok g1.
Proof. destruct toy_switched_run as (w0 & g1 & _ & _ & H & _). eauto. Qed.

(** At a switch the chosen generator is reset with the last reference; a sub-episoded
    generator continues from its value. *)
Lemma single_mem nms st nm : NoDup st -> incl st nms -> In nm nms -> mem nms st = map (String.eqb nm) nms -> st = [nm].
Proof.
  intros Hd Hi Hnm Hm. assert (H : forall x, In x nms -> (In x st <-> x = nm)).
  { intros x Hx. unfold mem in Hm. assert (E : str_in x st = String.eqb nm x). { clear - Hm Hx. induction nms as [|a l IH]; [contradiction|]. cbn in Hm. injection Hm as H1 H2. destruct Hx as [->|Hx]; auto. }
    destruct (String.eqb_spec nm x) as [->|Hn]; [rewrite str_in_true in E; tauto|]. rewrite str_in_false in E. split; [contradiction|congruence]. }
  destruct st as [|a st].
  - exfalso. apply (proj2 (H nm Hnm) eq_refl).
  - assert (a = nm) by (apply H; [apply Hi; now left|now left]). subst a. f_equal. destruct st as [|b st]; [reflexivity|]. exfalso. inversion Hd as [|? ? A B]; subst. assert (b = nm) by (apply H; [apply Hi; right; now left|right; now left]). subst. apply A. now left.
Qed.
Theorem switch_continues_from_last_reference :
  forall N ps (g0 g1 : gen N) ops w subs g2 r g3 obs,
  built g0 -> NoDup (p_names ps) -> set_modules ps g0 = Ok g1 -> run ops g1 = Ok (GSwitched w subs) ->
  get_reference (GSwitched w subs) = Ok (g2, r) -> (sw_len w <= Z.of_nat (sw_k w))%Z -> get_obs g2 = Ok (g3, obs) ->
  exists w2 subs2 w3 x x' rf, g2 = GSwitched w2 subs2 /\ g3 = GSwitched w3 (list_set (sw_cur w3) x' subs2) /\ nth_error subs2 (sw_cur w3) = Some x /\
    reset (Some r) x = Ok (x', (rf, obs)) /\
    forall s, x = GSub s -> rf = r /\ exists v lo hi l (g : np_gen N) e g', r = put_masked (s_mask s) v /\ s_margin s = LmPair lo hi /\
      new_reference (s_kind s) lo hi v (s_tau s) (py_int l) g = Ok (e, g') /\ exists y, nth_error e 0 = Some y /\ obs = [y].
Proof.
  intros N ps g0 g1 ops w subs g2 r g3 obs Hb Hn Hset Hrun Href Hdue Hobs. pose proof (set_modules_wf ps g0 Hn g1 Hb Hset) as W1. destruct (run_keeps _ _ _ _ W1 Hrun) as (W2 & _).
  destruct (get_reference_ok _ _ W2) as (g2' & r' & E & R). rewrite Href in E. apply Ok_inj in E. injection E as <- <-. destruct R as (W3 & _ & _ & Rs & Rst & _ & Rr).
  cbn [get_reference] in Href. bindh Href. destruct v as [subs2 r2]. apply Ok_inj in Href. cbn [fst snd] in Href. injection Href as <- <-. cbn [get_obs sw_len sw_k sw_with sw_ref] in Hobs.
  destruct (Z.leb_spec (sw_len w) (Z.of_nat (sw_k w))) as [_|]; [|lia]. bindh Hobs. bindh Hobs. destruct v0 as [subs3 [rf o]]. apply Ok_inj in Hobs. injection Hobs as Hg3 Ho3. cbn [fst snd] in Hg3, Ho3. subst o.
  destruct (at_nth_inv _ _ _ _ _ E1) as (x & x' & Hx & Hres & ->). unfold sw_draw in E0. bindh E0. bindh E0. apply Ok_inj in E0. subst v. cbn [sw_cur sw_with] in *.
  match type of Hg3 with GSwitched ?W _ = _ => set (w3 := W) in *; assert (Hc : sw_cur w3 = fst v1) by reflexivity; clearbody w3 end. subst g3. rewrite <- Hc in Hx |- *.
  eexists _, _, w3, x, x', rf. split; [reflexivity|]. split; [reflexivity|]. split; [exact Hx|]. split; [exact Hres|]. intros s ->.
  cbn [reset] in Hres. bindh Hres. destruct v as [s' [rf' o']]. apply Ok_inj in Hres. cbn [fst snd] in Hres. injection Hres as <- <- <-.
  inversion W3 as [| | |w3' l3 F1 F2 F3|]; subst. rewrite Forall_forall in F1, F2. pose proof (nth_error_In _ _ Hx) as Hin. pose proof (F1 _ Hin) as Wx. inversion Wx as [| |s0 X1 X2| |]; subst.
  destruct (F2 _ Hin) as [M1 _]. cbn [g_mask sw_mask sw_with] in M1.
  destruct (wf_states _ _ W2) as (S1 & S2 & S3 & S4). cbn [g_mask] in S1.
  assert (Est : ref_states (GSwitched w subs) = [lower (s_state s)]) by (apply (single_mem (p_names ps)); [exact S2|exact S3|exact X1|rewrite <- S1, <- M1; exact X2]).
  rewrite Est in S4. destruct (shown (GSwitched w subs)) as [|v [|? ?]] eqn:Esh; try discriminate S4. rewrite Est. rewrite <- put_masked_placed, <- X2.
  assert (Hv : exists seq g, np_spawn N (s_seq s) = (g, seq) /\ sub_obs (sub_with s v (-1) (s_k s) (s_ref s) seq g) = Ok (s', o') /\ rf' = put_masked (s_mask s) v).
  { unfold sub_reset in E0. assert (Ek : match s_kind s with
           | Wiener _ i => Ok (Some (placed (p_names ps) (ref_states (GSwitched w subs)) [v]), s_gen s) | _ => Ok (Some (placed (p_names ps) (ref_states (GSwitched w subs)) [v]), s_gen s) end = Ok (Some (put_masked (s_mask s) v), s_gen s)).
    { rewrite Est, <- put_masked_placed, <- X2. destruct (s_kind s); reflexivity. }
    assert (Ep : pick (s_mask s) (put_masked (s_mask s) v) = Ok v) by (rewrite X2; now apply pick_put).
    rewrite Est, <- put_masked_placed, <- X2 in E0.
    assert (E0' : (do v0 <- pick (s_mask s) (put_masked (s_mask s) v); let (g, seq) := np_spawn N (s_seq s) in do o0 <- sub_obs (sub_with s v0 (-1) (s_k s) (s_ref s) seq g); Ok (fst o0, (sub_get (sub_with s v0 (-1) (s_k s) (s_ref s) seq g), snd o0))) = Ok (s', (rf', o'))) by (destruct (s_kind s); exact E0).
    clear E0 Ek. rewrite Ep in E0'. cbn [bind] in E0'. destruct (np_spawn N (s_seq s)) as [g seq]. bindh E0'. destruct v0 as [s1 o1]. apply Ok_inj in E0'. injection E0' as <- <- <-. cbn [fst snd] in *. exists seq, g. split; [reflexivity|]. split; [rewrite E0; now destruct v2|reflexivity]. }
  destruct Hv as (seq & g & _ & Ho & ->). split; [reflexivity|]. destruct (sub_obs_inv _ _ _ Ho) as (s1 & rr & y & Y1 & Y2 & -> & _ & C). cbn [s_len s_k sub_with] in C.
  destruct C as [[C _]|(_ & l & gg & lo & hi & g' & C1 & C2 & C3 & ->)]; [lia|]. exists v, lo, hi, l, gg, rr, g'. split; [reflexivity|]. split; [exact C2|]. split; [exact C3|]. exists y. split; [exact Y2|reflexivity].
Qed.
Print Assumptions switch_continues_from_last_reference.
Example switch_example : exists g0 g1 w subs, @built toy g0 /\ set_modules toy_ps g0 = Ok g1 /\ run [Reset None; GetRef; GetObs; GetRef; GetObs; GetRef] g1 = Ok (GSwitched w subs).
Proof.
  destruct toy_switched_run as (w0 & g1 & Hb & Hr & Hset & Hrun). destruct (Hrun [GetRef; GetObs; GetRef; GetObs; GetRef] ltac:(repeat constructor)) as [gx Hx].
  destruct (switched_space _ _ _ _ Hset) as (w1 & subs1 & -> & E1 & _). pose proof (run_same _ _ _ Hx) as S1. inversion S1 as [| | |w3 w4 l3 l4 B B'|]; subst. do 4 eexists. split; [exact Hb|]. split; [exact Hset|exact Hx].
Qed.

(** ** C53 Reference names *)
Theorem reference_names_are_states :
  forall N ps (g0 g1 g2 : gen N) ops, built g0 -> no_const g0 -> NoDup (p_names ps) -> set_modules ps g0 = Ok g1 -> run ops g1 = Ok g2 ->
  g_names g2 = NList (ref_states g2) /\ incl (ref_states g2) (p_names ps).
Proof.
  intros N ps g0 g1 g2 ops Hb Hc Hn Hset Hrun. pose proof (set_modules_wf ps g0 Hn g1 Hb Hset) as W1. destruct (run_keeps _ _ _ _ W1 Hrun) as (W2 & _).
  split; [|now apply (wf_states _ _ W2)]. apply (named_states (p_names ps)); [exact W2|]. exact (named_same _ _ (run_same _ _ _ Hrun) (set_modules_named ps g0 g1 Hb Hc Hset)).
Qed.
Print Assumptions reference_names_are_states.
Example names_example : exists g1, set_modules toy_ps (multiple_new [GSub toy_sub]) = Ok g1 /\ no_const (multiple_new [GSub toy_sub]).
Proof.
  destruct (proj1 (multiple_refuses_overlap toy toy_ps [GSub toy_sub] [GSub toy_sub1] toy_names_nodup ltac:(constructor; [exact toy_sub_built|constructor]) ltac:(discriminate)
    ltac:(constructor; [cbn [set_modules]; rewrite toy_sub_announced; reflexivity|constructor]))) as [m Hm]; [repeat constructor; cbn; tauto|].
  eexists. split; [exact Hm|]. repeat constructor.
Qed.
(** With a constant reference among the parts the announced names are single letters. *)
Lemma lower_length s : String.length (lower s) = String.length s.
Proof. induction s as [|c s IH]; cbn; [reflexivity|]. f_equal. exact IH. Qed.
Theorem const_reference_names_refuted :
  forall N ps s v (g1 : gen N), NoDup (p_names ps) -> String.length s <> 1%nat -> set_modules ps (multiple_new [const_new s v]) = Ok g1 ->
  ref_states g1 = [lower s] /\ g_names g1 <> NList [lower s] /\
  g_names g1 = NList (map (fun c => String.String c String.EmptyString) (String.list_ascii_of_string (lower s))).
Proof.
  intros N ps s v g1 Hn Hl H. assert (En : g_names g1 = NList (map (fun c => String.String c String.EmptyString) (String.list_ascii_of_string (lower s)))) by (rewrite (set_modules_names _ _ _ H); reflexivity).
  split; [|split; [|exact En]].
  - unfold multiple_new, const_new in H. cbn [set_modules] in H. rewrite each_cons in H. cbn [set_modules] in H. destruct (state_mask (lower s) (p_names ps)) as [m|]; cbn [bind each fst snd] in H; [|discriminate]. bindh H. apply Ok_inj in H. subst g1. cbn. now rewrite lower_idem.
  - rewrite En. intros E. injection E as E. apply (f_equal (@length string)) in E. rewrite map_length in E. cbn in E. apply Hl. rewrite <- (lower_length s). clear - E.
    revert E. generalize (lower s) as t. intros t E. rewrite <- E. clear E. induction t as [|c t IH]; cbn; [reflexivity|]. now rewrite IH.
Qed.
Print Assumptions const_reference_names_refuted.
Example const_names_example : exists g1, set_modules toy_ps (multiple_new [@const_new toy "torque" 1]) = Ok g1.
Proof. unfold multiple_new, const_new. cbn [set_modules]. rewrite each_cons. cbn [set_modules]. change (lower "torque") with "torque". rewrite toy_mask_torque. cbn. eauto. Qed.
(** Switching between a constant and any other kind of reference is refused for the same
    reason. *)
Theorem switching_with_const_refused :
  forall N s v (x : gen N) rest p range seq, (forall t, g_names x <> NStr t) -> In x rest ->
  switched_new (const_new s v :: rest) p range seq = Err AssertionError.
Proof.
  intros N s v x rest p range seq Hx Hin. unfold switched_new. match goal with |- context [forallb ?f ?l] => assert (E : forallb f l = false) end; [|rewrite E; reflexivity].
  destruct (forallb _ _) eqn:E; [|reflexivity]. exfalso. rewrite forallb_forall in E. specialize (E x (or_intror Hin)). cbn [g_names const_new] in E. apply names_eqb_eq in E. exact (Hx _ E).
Qed.
Print Assumptions switching_with_const_refused.
Example switching_with_const_example : switched_new [const_new "omega" 1; GSub toy_sub] None (100%Z, 200%Z) (0%nat : np_seq toy) = Err AssertionError.
Proof. apply (switching_with_const_refused toy "omega" 1 (GSub toy_sub)); [discriminate|now left]. Qed.
