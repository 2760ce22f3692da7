(** Proofs for the ramping callback. *)
From Verif Require Import PyBase PyBaseFacts RefGen_Model RefGen_Spec RefGen_Proofs RefGen_Proofs2 RefGen_Proofs3 Ramp_Model Ramp_Spec.
Local Open Scope R_scope.

(** ** The numbers *)
Lemma ramped_0 i m s : ramped i m s 0 = i.
Proof. reflexivity. Qed.
Lemma ramped_S i m s k : ramped i m s (S k) = (Rmax (fst i - INR (S k) * s) (fst m), Rmin (snd i + INR (S k) * s) (snd m)).
Proof. reflexivity. Qed.
Lemma rmax_if a b : (if rlt b a then a else b) = Rmax a b.
Proof. destruct (rltP b a) as [H|H]; [rewrite Rmax_left|rewrite Rmax_right]; lra. Qed.
Lemma rmin_if a b : (if rlt a b then a else b) = Rmin a b.
Proof. destruct (rltP a b) as [H|H]; [rewrite Rmin_left|rewrite Rmin_right]; lra. Qed.
Lemma widen_eq r : widen r = (Rmax (fst (ra_margin r) - ra_step r) (fst (ra_max r)), Rmin (snd (ra_margin r) + ra_step r) (snd (ra_max r))).
Proof. unfold widen. now rewrite rmax_if, rmin_if. Qed.
Lemma widen_ramped i m s k r : 0 <= s -> ra_max r = m -> ra_step r = s -> ra_margin r = ramped i m s k -> widen r = ramped i m s (S k).
Proof.
  intros Hs Em Es E. rewrite widen_eq, E, Em, Es, ramped_S. destruct k as [|k].
  - cbn [ramped INR]. rewrite Rmult_1_l. reflexivity.
  - rewrite ramped_S. cbn [fst snd]. rewrite (S_INR (S k)). f_equal.
    + unfold Rmax. repeat destruct Rle_dec; lra.
    + unfold Rmin. repeat destruct Rle_dec; lra.
Qed.
Lemma ramped_stays i m s k : 0 <= s -> ramped i m s k = m -> ramped i m s (S k) = m.
Proof.
  intros Hs. rewrite ramped_S, S_INR. destruct k as [|k].
  - cbn [ramped INR]. intros ->. destruct m as [a b]. cbn. f_equal; unfold Rmax, Rmin; destruct Rle_dec; lra.
  - rewrite ramped_S. destruct m as [a b]. cbn [fst snd]. generalize (INR (S k)). intros n. intros [= Ha Hb]. f_equal; [revert Ha|revert Hb]; unfold Rmax, Rmin; repeat destruct Rle_dec; lra.
Qed.
Lemma pair_req a b : req (fst a) (fst b) && req (snd a) (snd b) = true -> a = b.
Proof. intros H. apply andb_prop in H. destruct H as [H1 H2]. apply req_true in H1, H2. destruct a, b; cbn in *. congruence. Qed.

Section Ramp.
Context {N : numpy}.
Notation gen := (gen N).
Notation sub := (sub N).

(** ** Operations on trees of sub-episoded generators *)
Lemma all_subs_impl (P Q : sub -> Prop) g : (forall s, P s -> Q s) -> all_subs P g -> all_subs Q g.
Proof.
  intros H [s Hs|w subs Hs]; constructor; [auto|]. eapply Forall_impl; [|exact Hs]. intros x (s & -> & Hp). eauto.
Qed.
Lemma all_subs_list (P : sub -> Prop) i x' subs : Forall (fun x => exists s, x = GSub s /\ P s) subs -> (exists s, x' = GSub s /\ P s) -> Forall (fun x : gen => exists s, x = GSub s /\ P s) (list_set i x' subs).
Proof. intros H Hx. now apply list_set_forall. Qed.

(** [P] is kept and the value satisfies [Q]. *)
Definition kept (P : sub -> Prop) (Q : R -> Prop) : Prop :=
  (forall s s' o, P s -> sub_obs s = Ok (s', o) -> P s' /\ Q (s_value s')) /\
  (forall init s s' rf o, P s -> sub_reset init s = Ok (s', (rf, o)) -> P s' /\ Q (s_value s')).
Lemma leaf_reset P Q init x x' rf o : kept P Q -> (exists s, x = GSub s /\ P s) -> reset init x = Ok (x', (rf, o)) -> (exists s, x' = GSub s /\ P s) /\ exists v, o = [v] /\ Q v.
Proof.
  intros [_ K] (s & -> & Hs) H. cbn [reset] in H. bindh H. destruct v as [s' [rf' o']]. apply Ok_inj in H. injection H as <- <- <-.
  destruct (K _ _ _ _ _ Hs E) as [K1 K2]. destruct (sub_reset_static _ _ _ _ _ E) as [-> _]. split; [eauto|]. eexists. split; [reflexivity|exact K2].
Qed.
Lemma leaf_obs P Q x x' o : kept P Q -> (exists s, x = GSub s /\ P s) -> get_obs x = Ok (x', o) -> (exists s, x' = GSub s /\ P s) /\ exists v, o = [v] /\ Q v.
Proof.
  intros [K _] (s & -> & Hs) H. cbn [get_obs] in H. bindh H. destruct v as [s' o']. apply Ok_inj in H. injection H as <- <-.
  destruct (K _ _ _ Hs E) as [K1 K2]. destruct (sub_obs_static _ _ _ E) as [-> _]. split; [eauto|]. eexists. split; [reflexivity|exact K2].
Qed.
Lemma tree_reset P Q init g g' rf o : kept P Q -> all_subs P g -> reset init g = Ok (g', (rf, o)) -> all_subs P g' /\ exists v, o = [v] /\ Q v.
Proof.
  intros K [s Hs|w subs Hs] H.
  - destruct (leaf_reset P Q init _ _ _ _ K (ex_intro _ s (conj eq_refl Hs)) H) as [(s' & -> & Hs') Hv]. split; [now constructor|exact Hv].
  - cbn [reset] in H. destruct (np_spawn N (sw_seq w)) as [gn seq]. bindh H. bindh H. destruct v0 as [subs' [rf' o']]. apply Ok_inj in H. injection H as <- <- <-.
    destruct (at_nth_inv _ _ _ _ _ E0) as (x & x' & Hx & Hr & ->). pose proof Hs as Hs'. rewrite Forall_forall in Hs'.
    destruct (leaf_reset P Q init x x' rf' o' K (Hs' x (nth_error_In _ _ Hx)) Hr) as [L1 L2]. split; [|exact L2]. constructor. now apply all_subs_list.
Qed.
Lemma tree_obs P Q g g' o : kept P Q -> all_subs P g -> get_obs g = Ok (g', o) -> all_subs P g' /\ exists v, o = [v] /\ Q v.
Proof.
  intros K [s Hs|w subs Hs] H.
  - destruct (leaf_obs P Q _ _ _ K (ex_intro _ s (conj eq_refl Hs)) H) as [(s' & -> & Hs') Hv]. split; [now constructor|exact Hv].
  - pose proof Hs as Hs'. rewrite Forall_forall in Hs'. cbn [get_obs] in H. destruct (sw_len w <=? Z.of_nat (sw_k w))%Z.
    + bindh H. bindh H. destruct v0 as [subs' [rf' o']]. apply Ok_inj in H. injection H as <- <-. destruct (at_nth_inv _ _ _ _ _ E0) as (x & x' & Hx & Hr & ->).
      destruct (leaf_reset P Q _ x x' rf' o' K (Hs' x (nth_error_In _ _ Hx)) Hr) as [L1 L2]. split; [|exact L2]. constructor. now apply all_subs_list.
    + bindh H. destruct v as [subs' o']. apply Ok_inj in H. injection H as <- <-. destruct (at_nth_inv _ _ _ _ _ E) as (x & x' & Hx & Hr & ->).
      destruct (leaf_obs P Q x x' o' K (Hs' x (nth_error_In _ _ Hx)) Hr) as [L1 L2]. split; [|exact L2]. constructor. now apply all_subs_list.
Qed.
Lemma tree_reference (P : sub -> Prop) g g' o : all_subs P g -> get_reference g = Ok (g', o) -> all_subs P g'.
Proof.
  intros [s Hs|w subs Hs] H; cbn [get_reference] in H.
  - apply Ok_inj in H. injection H as <- _. now constructor.
  - bindh H. destruct v as [subs' o']. apply Ok_inj in H. injection H as <- _. destruct (at_nth_inv _ _ _ _ _ E) as (x & x' & Hx & Hr & ->).
    pose proof Hs as Hs'. rewrite Forall_forall in Hs'. destruct (Hs' x (nth_error_In _ _ Hx)) as (s & -> & Hp). cbn [get_reference] in Hr. apply Ok_inj in Hr. injection Hr as <- _.
    constructor. apply all_subs_list; eauto.
Qed.
Lemma assign_all (P Q : sub -> Prop) m g : (forall s, P s -> Q (set_margin m s)) -> all_subs P g -> all_subs Q (assign_margin m g).
Proof.
  intros H [s Hs|w subs Hs]; cbn; [constructor; auto|]. constructor. apply Forall_map. eapply Forall_impl; [|exact Hs]. intros x (s & -> & Hp). cbn. eauto.
Qed.
Lemma set_env_all r (g g0 : gen) (P Q : sub -> Prop) : (forall s, P s -> Q (set_margin (ra_margin r) s)) -> (all_subs (fun _ => True) g -> all_subs P g) -> ramp_set_env r g = Ok g0 -> all_subs Q g0.
Proof.
  intros HQ HP H. unfold ramp_set_env in H. bindh H. apply Ok_inj in H. subst g0. apply (assign_all P); [exact HQ|]. apply HP.
  destruct g as [s0 v0 m|n|s|w subs|m subs]; cbn [is_sub py_assert] in E; try discriminate; [now constructor|]. constructor.
  destruct (forallb is_sub subs) eqn:Ef; [|discriminate]. rewrite forallb_forall in Ef. apply Forall_forall. intros x Hx. specialize (Ef x Hx). destruct x; try discriminate. eauto.
Qed.

(** ** The invariant of the callback *)
(** [hull] contains all margins; [n] events so far. *)
Definition sub_inv (m hull : R * R) (s : sub) : Prop := has_margin m s /\ forall l, s_ref s = Some l -> Forall (fun x => fst hull <= x <= snd hull) l.
Definition inv (SI : R * R -> sub -> Prop) (initial maximum : R * R) (step : R) (by_step : bool) (freq : Z) (n : nat) (x : ramp * gen) : Prop :=
  ra_max (fst x) = maximum /\ ra_step (fst x) = step /\ ra_by_step (fst x) = by_step /\ ra_freq (fst x) = freq /\
  ra_margin (fst x) = ramped initial maximum step (Z.to_nat (Z.of_nat n / Z.abs freq)) /\
  ra_count (fst x) = (Z.of_nat n mod Z.abs freq)%Z /\ all_subs (SI (ra_margin (fst x))) (snd x).

Lemma sub_kept m hull : fst m <= snd m -> within m hull -> kept (sub_inv m hull) (fun v => fst hull <= v <= snd hull).
Proof.
  intros Ho [W1 W2].
  assert (K : forall s s' o, sub_inv m hull s -> sub_obs s = Ok (s', o) -> sub_inv m hull s' /\ fst hull <= s_value s' <= snd hull).
  { intros s s' o [Hm Hr] H. destruct (sub_obs_inv _ _ _ H) as (s1 & r & v & E1 & E2 & -> & -> & C).
    assert (F : Forall (fun x => fst hull <= x <= snd hull) r /\ has_margin m s1).
    { destruct C as [[_ ->]|(_ & l & g1 & lo & hi & g2 & _ & M' & Hn & ->)]; [split; [auto|exact Hm]|]. unfold has_margin in Hm. rewrite Hm in M'. injection M' as <- <-.
      split; [|exact Hm]. apply new_reference_inside in Hn; [|exact Ho]. eapply Forall_impl; [|exact Hn]. cbn. intros a Ha. lra. }
    destruct F as [F Hm1]. split.
    - split; [exact Hm1|]. cbn. intros l El. congruence.
    - cbn. rewrite Forall_forall in F. apply F. eapply nth_error_In; eauto. }
  split; [exact K|]. intros init s s' rf o Hs H. destruct (sub_reset_inv _ _ _ _ _ H) as (v & seq & g & _ & H1 & _). apply (K _ _ _) in H1; [exact H1|exact Hs].
Qed.
Lemma div_mod_step n f : (f <> 0)%Z ->
  ((Z.of_nat n mod Z.abs f + 1) mod f = 0 /\ Z.of_nat (S n) / Z.abs f = Z.of_nat n / Z.abs f + 1 /\ Z.of_nat (S n) mod Z.abs f = 0)%Z \/
  ((Z.of_nat n mod Z.abs f + 1) mod f <> 0 /\ Z.of_nat (S n) / Z.abs f = Z.of_nat n / Z.abs f /\ Z.of_nat (S n) mod Z.abs f = Z.of_nat n mod Z.abs f + 1)%Z.
Proof.
  intros Hf. set (a := Z.abs f). assert (Ha : (0 < a)%Z) by (unfold a; lia). set (z := Z.of_nat n).
  assert (Ez : Z.of_nat (S n) = (z + 1)%Z) by (unfold z; lia). rewrite Ez.
  pose proof (Z.div_mod z a ltac:(lia)) as Dm. pose proof (Z.mod_pos_bound z a Ha) as Hb.
  set (c := (z mod a)%Z) in *. set (q := (z / a)%Z) in *. clearbody c q.
  assert (Hdiv : forall t, (t mod f = 0)%Z <-> (t mod a = 0)%Z).
  { intros t. rewrite !Z.mod_divide by lia. unfold a. now rewrite Z.divide_abs_l. }
  destruct (Z.eq_dec (c + 1) a) as [Hc|Hc].
  - left. split; [apply Hdiv; rewrite Hc; apply Z.mod_same; lia|].
    assert (E : (z + 1 = a * (q + 1) + 0)%Z) by nia. split; [symmetry; apply (Z.div_unique_pos _ _ _ 0); lia|symmetry; apply (Z.mod_unique_pos _ _ (q + 1)); lia].
  - right. assert (E : (z + 1 = a * q + (c + 1))%Z) by lia. split; [|split; [symmetry; apply (Z.div_unique_pos _ _ _ (c + 1)); lia|symmetry; apply (Z.mod_unique_pos _ _ q); lia]].
    intros H0. apply Hdiv in H0. rewrite Z.mod_small in H0 by lia. lia.
Qed.
Lemma ramped_within i m s k hull : 0 <= s -> within i hull -> within m hull -> within (ramped i m s k) hull.
Proof.
  intros Hs [A1 A2] [B1 B2]. destruct k as [|k]; [split; assumption|]. rewrite ramped_S. split; cbn [fst snd].
  - apply Rle_trans with (fst m); [exact B1|apply Rmax_r].
  - apply Rle_trans with (snd m); [apply Rmin_r|exact B2].
Qed.
Lemma ramped_in_max i m s k : within (ramped i m s (S k)) m.
Proof. rewrite ramped_S. split; cbn [fst snd]; [apply Rmax_r|apply Rmin_r]. Qed.
Lemma ramped_grows i m s j k : 0 <= s -> within i m -> (j <= k)%nat -> within (ramped i m s j) (ramped i m s k).
Proof.
  intros Hs [A1 A2] Hjk. induction Hjk as [|k Hjk IH]; [split; lra|].
  assert (W : within (ramped i m s k) (ramped i m s (S k))).
  { rewrite ramped_S, S_INR. pose proof (pos_INR k) as Hk. assert (Hp : 0 <= INR k * s) by (apply Rmult_le_pos; assumption). destruct k as [|k].
    - cbn [ramped INR]. split; cbn [fst snd]; unfold Rmax, Rmin; destruct Rle_dec; lra.
    - rewrite ramped_S. rewrite (S_INR k) in *. split; cbn [fst snd]; unfold Rmax, Rmin; repeat destruct Rle_dec; nra. }
  destruct IH as [I1 I2], W as [W1 W2]. split; lra.
Qed.

(** With ordered margins the widened ones are ordered if the intervals meet. *)
Lemma ramped_ordered i m s k : 0 <= s -> fst i < snd i -> fst m < snd m -> fst m <= snd i -> fst i <= snd m -> fst (ramped i m s k) <= snd (ramped i m s k).
Proof.
  intros Hs Hi Hm A B. destruct k as [|k]; [cbn; lra|]. rewrite ramped_S. cbn [fst snd]. assert (Hp : 0 <= INR (S k) * s) by (apply Rmult_le_pos; [apply pos_INR|assumption]).
  unfold Rmax, Rmin. repeat destruct Rle_dec; lra.
Qed.

Section Inv.
Variables (SI : R * R -> sub -> Prop) (Q : R -> Prop) (initial maximum : R * R) (st : R) (by_step : bool) (freq : Z).
Hypothesis Hst : 0 <= st.
Hypothesis Hf : (freq <> 0)%Z.
Hypothesis Hset : forall m m' s, SI m s -> SI m' (set_margin m' s).
Notation I := (inv SI initial maximum st by_step freq).
Lemma update_event n r g r' g' : I n (r, g) -> count_event r g = Ok (r', g') -> I (S n) (r', g').
Proof.
  intros (E1 & E2 & E3 & E4 & E5 & E6 & E7) H. cbn [fst snd] in *. unfold count_event in H. rewrite E4 in H. destruct (freq =? 0)%Z eqn:Ez; [apply Z.eqb_eq in Ez; contradiction|].
  rewrite E6 in H. assert (Hq : (0 <= Z.of_nat n / Z.abs freq)%Z) by (apply Z.div_pos; lia).
  destruct (div_mod_step n freq Hf) as [(D1 & D2 & D3)|(D1 & D2 & D3)].
  - rewrite D1 in H. cbn [Z.eqb] in H. apply Ok_inj in H. unfold update_margin in H.
    assert (Ew : widen (with_count 0 r) = ramped initial maximum st (S (Z.to_nat (Z.of_nat n / Z.abs freq)))) by (apply widen_ramped; assumption).
    assert (Ek : Z.to_nat (Z.of_nat (S n) / Z.abs freq) = S (Z.to_nat (Z.of_nat n / Z.abs freq))) by (rewrite D2; lia).
    destruct (req (fst (ra_margin (with_count 0 r))) (fst (ra_max (with_count 0 r))) && req (snd (ra_margin (with_count 0 r))) (snd (ra_max (with_count 0 r)))) eqn:Eq.
    + apply pair_req in Eq. injection H as <- <-. cbn in Eq. unfold inv. cbn [fst snd with_count ra_max ra_step ra_by_step ra_freq ra_margin ra_count]. do 4 (split; [assumption|]). split; [|split; [symmetry; exact D3|exact E7]].
      rewrite Ek, (ramped_stays initial maximum st _ Hst); congruence.
    + injection H as <- <-. unfold inv. cbn [fst snd with_count with_margin ra_max ra_step ra_by_step ra_freq ra_margin ra_count]. do 4 (split; [assumption|]). split; [rewrite Ek; exact Ew|]. split; [symmetry; exact D3|].
      apply (assign_all (SI (ra_margin r))); [|exact E7]. intros s Hs. eapply Hset. exact Hs.
  - destruct ((Z.of_nat n mod Z.abs freq + 1) mod freq =? 0)%Z eqn:Em; [apply Z.eqb_eq in Em; contradiction|]. apply Ok_inj in H. injection H as <- <-.
    unfold inv. cbn [fst snd with_count ra_max ra_step ra_by_step ra_freq ra_margin ra_count]. do 4 (split; [assumption|]). rewrite D2. split; [exact E5|]. split; [symmetry; exact D3|exact E7].
Qed.
Hypothesis Hkept : forall k, kept (SI (ramped initial maximum st k)) Q.
Lemma op_inv n o x y obs : I n x -> env_op_run o x = Ok (y, obs) ->
  I (match o with EStep => if by_step then S n else n | EReset => if by_step then n else S n end) y /\ exists v, obs = [v] /\ Q v.
Proof.
  intros Hi H. destruct x as [r g]. pose proof Hi as (E1 & E2 & E3 & E4 & E5 & E6 & E7). cbn [fst snd] in *.
  assert (K : kept (SI (ra_margin r)) Q) by (rewrite E5; auto).
  assert (Hmove : forall g', all_subs (SI (ra_margin r)) g' -> I n (r, g')) by (intros g' Hg; unfold inv; cbn [fst snd]; tauto).
  pose proof (fun g0 r1 g1 => update_event n r g0 r1 g1) as U.
  destruct o; cbn [env_op_run fst snd] in H.
  - bindh H. destruct v as [g1 [rf ob]]. bindh H. destruct v as [r2 g2]. apply Ok_inj in H. injection H as <- <-. cbn [fst snd] in E0.
    destruct (tree_reset _ _ _ _ _ _ _ K E7 E) as [T1 T2]. split; [|exact T2]. unfold on_reset_end in E0. rewrite E3 in E0. destruct by_step.
    + apply Ok_inj in E0. injection E0 as <- <-. auto.
    + apply (U _ _ _ (Hmove _ T1) E0).
  - bindh H. destruct v as [g1 rf]. bindh H. destruct v as [g2 ob]. bindh H. destruct v as [r3 g3]. apply Ok_inj in H. injection H as <- <-. cbn [fst snd] in *.
    pose proof (tree_reference _ _ _ _ E7 E) as T0. destruct (tree_obs _ _ _ _ _ K T0 E0) as [T1 T2]. split; [|exact T2]. unfold on_step_end in E8. rewrite E3 in E8. destruct by_step.
    + apply (U _ _ _ (Hmove _ T1) E8).
    + apply Ok_inj in E8. injection E8 as <- <-. auto.
Qed.
Definition evs (ops : list env_op) : nat := length (filter (fun o => match o with EStep => by_step | EReset => negb by_step end) ops).
Lemma run_inv ops : forall n x y obs, I n x -> env_run ops x = Ok (y, obs) ->
  I (n + evs ops) y /\ Forall (fun o => exists v, o = [v] /\ Q v) obs.
Proof.
  induction ops as [|o ops IH]; intros n x y obs Hi H; cbn [env_run] in H.
  - apply Ok_inj in H. injection H as <- <-. cbn. rewrite Nat.add_0_r. split; [exact Hi|constructor].
  - bindh H. destruct v as [x1 o1]. bindh H. destruct v as [x2 os]. apply Ok_inj in H. injection H as <- <-. cbn [fst snd] in *.
    destruct (op_inv _ _ _ _ _ Hi E) as [H1 H2]. destruct (IH _ _ _ _ H1 E0) as [H3 H4]. split; [|constructor; assumption].
    assert (En : (n + evs (o :: ops) = (match o with EStep => if by_step then S n else n | EReset => if by_step then n else S n end) + evs ops)%nat).
    { unfold evs. cbn [filter]. destruct o, by_step; cbn; lia. }
    rewrite En. exact H3.
Qed.
End Inv.
End Ramp.

Lemma ramp_new_inv initial maximum step time freq r : ramp_new initial maximum step time freq = Ok r ->
  (time = "step"%string \/ time = "episode"%string) /\ fst initial < snd initial /\ fst maximum < snd maximum /\ -1 <= fst initial /\ -1 <= fst maximum /\ snd initial <= 1 /\ snd maximum <= 1 /\
  r = {| ra_margin := initial; ra_max := maximum; ra_step := step; ra_by_step := String.eqb time "step"; ra_count := 0; ra_freq := freq |}.
Proof.
  intros H. unfold ramp_new, py_assert in H.
  destruct (String.eqb time "step" || String.eqb time "episode") eqn:E0; [|discriminate].
  destruct (rltP (fst initial) (snd initial)) as [E1|E1]; [|discriminate]. destruct (rltP (fst maximum) (snd maximum)) as [E2|E2]; [|discriminate].
  destruct (rleP (-1) (fst initial)) as [E3|E3]; [|discriminate]. destruct (rleP (-1) (fst maximum)) as [E4|E4]; [|discriminate].
  destruct (rleP (snd initial) 1) as [E5|E5]; [|discriminate]. destruct (rleP (snd maximum) 1) as [E6|E6]; [|discriminate]. apply Ok_inj in H.
  apply orb_prop in E0. rewrite !String.eqb_eq in E0. subst r. tauto.
Qed.
Lemma evs_events time ops : time = "step"%string \/ time = "episode"%string -> evs (String.eqb time "step") ops = events time ops.
Proof. intros [->| ->]; reflexivity. Qed.

(** ** Fresh generators *)
Section Fresh.
Context {N : numpy}.
Lemma set_modules_fresh ps (g g1 : gen N) : built g -> set_modules ps g = Ok g1 -> all_subs (fun _ => True) g1 -> all_subs (@fresh_sub N) g1.
Proof.
  assert (Leaf : forall (x : gen N) s, built x -> set_modules ps x = Ok (GSub s) -> @fresh_sub N s).
  { intros x s Hb H. destruct Hb as [s0 v|n|state lens m k seq s0 Hk Hs|subs p range seq g0 Hall Hs|subs Hall].
    - unfold const_new in H. cbn [set_modules] in H. bindh H. discriminate.
    - discriminate.
    - cbn [set_modules] in H. bindh H. apply Ok_inj in H. injection H as <-. unfold sub_modules in E. bindh E. bindh E. apply Ok_inj in E. subst v. unfold fresh_sub. cbn [s_ref].
      unfold sub_new in Hs. destruct (np_spawn N seq) as [gn seq']. bindh Hs. apply Ok_inj in Hs. subst s0. reflexivity.
    - unfold switched_new in Hs. destruct subs as [|g1' subs]; [discriminate|]. bindh Hs. destruct (np_spawn N seq). apply Ok_inj in Hs. subst g0. cbn [set_modules] in H. bindh H. bindh H. bindh H. destruct (fst v0); [discriminate|]. bindh H. discriminate.
    - unfold multiple_new in H. cbn [set_modules] in H. bindh H. destruct (fst v); [discriminate|]. bindh H. discriminate. }
  intros Hb H Ha. revert H. destruct Ha as [s _|w subs Hs]; intros H.
  - constructor. exact (Leaf _ _ Hb H).
  - destruct Hb as [s0 v|n|state lens m k seq s0 Hk Hs0|subs0 p range seq g0 Hall Hs0|subs0 Hall].
    + unfold const_new in H. cbn [set_modules] in H. bindh H. discriminate.
    + discriminate.
    + cbn [set_modules] in H. bindh H. discriminate.
    + unfold switched_new in Hs0. destruct subs0 as [|g1' subs0]; [discriminate|]. bindh Hs0. destruct (np_spawn N seq). apply Ok_inj in Hs0. subst g0. cbn [set_modules] in H.
      bindh H. bindh H. bindh H. destruct v0 as [subs' u]. destruct (each_inv _ _ _ _ E0) as (qs & E3 & _ & HF). cbn [fst] in H, E3. rewrite E3 in H. clear E3 E0 E1 E2.
      destruct (map fst qs) as [|x0 xs] eqn:Eq; [discriminate|]. rewrite <- Eq in H. bindh H. apply Ok_inj in H. injection H as _ Esub. rewrite <- Esub in *. clear Eq Esub.
      constructor. clear - Leaf Hall HF Hs. induction HF as [|x q l ps0 Hx HF IH]; cbn [map] in *; [constructor|]. inversion Hall as [|? ? A B]; subst. inversion Hs as [|? ? C D]; subst.
      constructor; [|auto]. destruct C as (s & C & _). destruct q as [y u]. cbn [fst] in C. bindh Hx. apply Ok_inj in Hx. injection Hx as <- _. exists s. split; [exact C|]. apply (Leaf x s A). congruence.
    + unfold multiple_new in H. cbn [set_modules] in H. bindh H. destruct (fst v); [discriminate|]. bindh H. discriminate.
Qed.

(** ** The announced space *)
Lemma assign_space m (g : gen N) : g_space (assign_margin m g) = g_space g.
Proof. destruct g; reflexivity. Qed.
Lemma count_space r (g : gen N) r' g' : count_event r g = Ok (r', g') -> g_space g' = g_space g.
Proof.
  unfold count_event. destruct (ra_freq r =? 0)%Z; [discriminate|]. destruct ((ra_count r + 1) mod ra_freq r =? 0)%Z; intros H; apply Ok_inj in H.
  - unfold update_margin in H. destruct (req _ _ && req _ _); injection H as _ <-; [reflexivity|apply assign_space].
  - now injection H as _ <-.
Qed.
Lemma reference_space_kept (g g' : gen N) o : get_reference g = Ok (g', o) -> g_space g' = g_space g.
Proof.
  intros H. apply get_reference_same in H. destruct H as [| |s s' (_ & _ & _ & _ & _ & E & _)|w w' subs subs' (_ & _ & _ & _ & E) _|]; cbn; congruence.
Qed.
Lemma env_space ops : forall (x y : ramp * gen N) obs, env_run ops x = Ok (y, obs) -> g_space (snd y) = g_space (snd x).
Proof.
  induction ops as [|o ops IH]; intros x y obs H; cbn [env_run] in H; [apply Ok_inj in H; injection H as <- _; reflexivity|].
  bindh H. destruct v as [x1 o1]. bindh H. destruct v as [x2 os]. apply Ok_inj in H. injection H as <- _. cbn [fst snd] in *. rewrite (IH _ _ _ E0). clear E0 IH.
  destruct o; cbn [env_op_run] in E.
  - bindh E. destruct v as [g1 [rf ob]]. bindh E. destruct v as [r2 g2]. apply Ok_inj in E. injection E as <- _. cbn [fst snd] in *. destruct (reset_keeps [] _ _ _ _ _ E0) as (_ & K & _). rewrite <- K.
    unfold on_reset_end in E1. destruct (ra_by_step (fst x)); [apply Ok_inj in E1; injection E1 as _ <-; reflexivity|]. exact (count_space _ _ _ _ E1).
  - bindh E. destruct v as [g1 rf]. bindh E. destruct v as [g2 ob]. bindh E. destruct v as [r3 g3]. apply Ok_inj in E. injection E as <- _. cbn [fst snd] in *. destruct (obs_keeps [] _ _ _ E1) as (_ & K & _). rewrite <- (reference_space_kept _ _ _ E0), <- K.
    unfold on_step_end in E2. destruct (ra_by_step (fst x)); [exact (count_space _ _ _ _ E2)|]. apply Ok_inj in E2. injection E2 as _ <-. reflexivity.
Qed.
Lemma set_env_space r (g g' : gen N) : ramp_set_env r g = Ok g' -> g_space g' = g_space g.
Proof. intros H. unfold ramp_set_env in H. bindh H. apply Ok_inj in H. subst g'. apply assign_space. Qed.
End Fresh.
