(** Further proofs about reference generators: switching, wave forms, randomness. *)
From Verif Require Import PyBaseFacts PyDictFacts Utils_Model Solver_Model Solver_Proofs RefGen_Model RefGen_Spec RefGen_Proofs RefGen_Proofs2 RefGen_Proofs3.

Section Switch.
Context {N : numpy} (HN : numpy_ok N).
Notation gen := (gen N).

Lemma sw_draw_inv (w w' : switched N) n : sw_draw w n = Ok w' -> exists l c g, w' = sw_with w l 0 c (sw_ref w) (sw_seq w) g /\ (fst (sw_range w) <= l < snd (sw_range w))%Z /\ (c < n)%nat.
Proof.
  intros E. unfold sw_draw in E. bindh E. destruct v as [l g1]. bindh E. destruct v as [c g2]. apply Ok_inj in E. subst w'. exists l, c, g2. cbn [fst snd]. split; [reflexivity|]. split; [|exact (ok_choice _ HN _ _ _ _ _ E1)].
  unfold np_integers in E0. destruct (Z.ltb_spec (fst (sw_range w)) (snd (sw_range w))) as [Hl|]; [|discriminate]. pose proof (ok_below _ HN (snd (sw_range w) - fst (sw_range w)) (sw_gen w) ltac:(lia)) as Hb.
  destruct (np_below N _ (sw_gen w)) as [d g3]. cbn [fst] in Hb. injection E0 as <- _. lia.
Qed.
Lemma replay_schedule (g g' : gen) n out : replay g n g' out -> forall w subs, g = GSwitched w subs ->
  exists ls, Forall (fun l => (fst (sw_range w) <= l < snd (sw_range w))%Z) ls /\
    let rem := repeat false (Z.to_nat (sw_len w - Z.of_nat (sw_k w))) in
    out = firstn n (rem ++ super_schedule ls) /\ (n <= length (rem ++ super_schedule ls))%nat /\ (ls <> [] -> (length (rem ++ super_schedule (removelast ls)) < n)%nat).
Proof.
  induction 1 as [g|g g1 r g2 o w0 n g3 out H1 H2 H3 H4 IH]; intros w subs ->.
  - exists []. cbn. split; [constructor|]. split; [reflexivity|]. split; [lia|congruence].
  - cbn [get_reference] in H1. bindh H1. destruct v as [subs1 r1]. apply Ok_inj in H1. injection H1 as <- <-. cbn [sw_of] in H2. injection H2 as <-. cbn [fst snd get_obs sw_len sw_k sw_with] in *.
    destruct (Z.leb_spec (sw_len w) (Z.of_nat (sw_k w))) as [Hk|Hk].
    + bindh H3. destruct (sw_draw_inv _ _ _ E0) as (l & c & g & -> & Hl & Hc). bindh H3. destruct v as [subs2 o2]. apply Ok_inj in H3. injection H3 as <- <-. cbn [sw_len sw_k sw_with fst snd sw_range] in *.
      destruct (IH _ _ eq_refl) as (ls & I1 & I2 & I3 & I4). cbn [sw_len sw_k sw_with sw_range] in *. change (Z.of_nat 1) with 1%Z in *. exists (l :: ls). split; [constructor; assumption|].
      replace (Z.to_nat (sw_len w - Z.of_nat (sw_k w))) with 0%nat by lia. cbn [repeat app super_schedule firstn length]. split; [now rewrite I2|]. split; [lia|]. intros _.
      destruct ls as [|l2 ls]; [cbn; lia|]. specialize (I4 ltac:(discriminate)). change (removelast (l :: l2 :: ls)) with (l :: removelast (l2 :: ls)). cbn [super_schedule length]. lia.
    + bindh H3. destruct v as [subs2 o2]. apply Ok_inj in H3. injection H3 as <- <-. destruct (IH _ _ eq_refl) as (ls & I1 & I2 & I3 & I4). cbn [sw_len sw_k sw_with sw_range] in *. exists ls. split; [exact I1|].
      replace (Z.to_nat (sw_len w - Z.of_nat (sw_k w))) with (S (Z.to_nat (sw_len w - Z.of_nat (S (sw_k w))))) by lia. cbn [repeat app firstn length]. split; [now rewrite I2|]. split; [lia|]. intros Hne. specialize (I4 Hne). lia.
Qed.

(** The space of a switched generator. *)
Lemma switched_space ps w (subs : list gen) g1 : set_modules ps (GSwitched w subs) = Ok g1 -> exists w' subs', g1 = GSwitched w' subs' /\ sw_range w' = sw_range w /\ forall x o, In x subs' -> inside (g_space x) o -> inside (g_space g1) o.
Proof.
  intros H. cbn [set_modules] in H. bindh H. destruct v as [subs' u]. cbn [fst] in H. bindh H. bindh H. destruct subs' as [|x0 l] eqn:Es; [discriminate|]. rewrite <- Es in *. bindh H. apply Ok_inj in H. subst g1.
  do 2 eexists. split; [reflexivity|]. split; [reflexivity|]. intros x o Hx (I1 & I2 & I3). cbn [g_space sw_space].
  pose proof (columnwise_length _ _ _ E0) as L1. pose proof (columnwise_length _ _ _ E1) as L2. rewrite Forall_forall in L1, L2.
  specialize (L1 (fst (g_space x)) (in_map (fun x => fst (g_space x)) _ _ Hx)). specialize (L2 (snd (g_space x)) (in_map (fun x => snd (g_space x)) _ _ Hx)).
  split; [cbn; congruence|]. split; [cbn; congruence|]. cbn [fst snd]. intros i lo hi vv H1 H2 H3.
  destruct (nth_error (fst (g_space x)) i) as [a|] eqn:Ea; [|exfalso; apply nth_error_None in Ea; assert (i < length o)%nat by (apply nth_error_Some; congruence); lia].
  destruct (nth_error (snd (g_space x)) i) as [b|] eqn:Ebb; [|exfalso; apply nth_error_None in Ebb; assert (i < length o)%nat by (apply nth_error_Some; congruence); lia].
  specialize (I3 _ _ _ _ Ea Ebb H3).
  assert (Ha : lo <= a).
  { refine (columnwise_bound Rmin Rle _ _ _ _ _ E0 (fst (g_space x)) i a lo (in_map (fun x => fst (g_space x)) _ _ Hx) Ea H1); [intros; split; [apply Rmin_l|apply Rmin_r]|intros; lra|intros; lra]. }
  assert (Hh : b <= hi).
  { apply Rge_le. refine (columnwise_bound Rmax Rge _ _ _ _ _ E1 (snd (g_space x)) i b hi (in_map (fun x => snd (g_space x)) _ _ Hx) Ebb H2); [intros; split; apply Rle_ge; [apply Rmax_l|apply Rmax_r]|intros; lra|intros; lra]. }
  lra.
Qed.

(** What a switch hands over. *)
Lemma pick_put nm nms v : In (lower nm) nms -> pick (map (String.eqb (lower nm)) nms) (put_masked (map (String.eqb (lower nm)) nms) v) = Ok v.
Proof.
  intros Hin. unfold pick. assert (E : exists r, masked (map (String.eqb (lower nm)) nms) (put_masked (map (String.eqb (lower nm)) nms) v) = Ok (v :: r)); [|destruct E as [r ->]; reflexivity].
  unfold put_masked. induction nms as [|a nms IH]; [contradiction|]. cbn [map masked].
  destruct (masked_ok (map (String.eqb (lower nm)) nms) (map (fun b : bool => if b then v else 0) (map (String.eqb (lower nm)) nms))) as [r Er]; [now rewrite !map_length|].
  destruct (String.eqb (lower nm) a) eqn:Ea; [rewrite Er; cbn [bind]; eauto|]. destruct Hin as [->|Hin]; [rewrite String.eqb_refl in Ea; discriminate|]. destruct (IH Hin) as [r' Er']. rewrite Er'. cbn [bind]. eauto.
Qed.
End Switch.

(** ** Single draws *)
Section Waves.
Context {N : numpy} (HN : numpy_ok N).

Lemma linspace_nth tau m i : (i < m)%nat -> nth_error (np_linspace (INR (m - 1) * tau) m) i = Some (INR i * tau).
Proof.
  intros H. unfold np_linspace. rewrite nth_error_map. assert (E : nth_error (seq 0 m) i = Some i). { rewrite nth_error_nth' with (d := 0%nat) by (now rewrite seq_length). now rewrite seq_nth. }
  rewrite E. cbn [option_map]. f_equal. destruct (Nat.eq_dec m 1) as [->|Hm]; [assert (i = 0%nat) by lia; subst; cbn; ring|]. field. apply not_0_INR. lia.
Qed.

Lemma clip_between x lo hi : lo <= hi -> lo <= np_clip x lo hi <= hi.
Proof. intros H. split; [now apply np_clip_lb|apply np_clip_ub]. Qed.

(** Values drawn by [draw_wave]. *)
Definition between (r : vrange) (v : R) : Prop := match r with VNum x | VNp x => v = x | VPair a b => Rmin a b <= v <= Rmax a b end.
Lemma current_value_between r (g : np_gen N) v g' : current_value r g = Ok (v, g') -> between r v.
Proof.
  destruct r as [x|x|a b]; cbn; intros H; [congruence|discriminate|]. pose proof (ok_uniform _ HN g) as Hu. destruct (np_uniform N g) as [u g1]. cbn [fst] in Hu. injection H as <- _.
  unfold Rmin, Rmax. destruct (Rle_dec a b); nra.
Qed.
Lemma draw_wave_inv w hi low (g : np_gen N) a f o g' : draw_wave w hi low g = Ok (a, f, o, g') ->
  exists amp off, w_set w = Some (amp, off) /\ between amp a /\ between (w_freq w) f /\ between (clip_range off (low a) (hi - a)) o.
Proof.
  unfold draw_wave. intros H. destruct (w_set w) as [[amp off]|]; [|discriminate]. bindh H. destruct v as [va ga]. bindh H. destruct v as [vf gf]. bindh H. destruct v as [vo go]. apply Ok_inj in H. cbn [fst snd] in *. injection H as <- <- <- <-.
  exists amp, off. split; [reflexivity|]. repeat split; eapply current_value_between; eassumption.
Qed.
Lemma between_clip r lo hi v : lo <= hi -> between (clip_range r lo hi) v -> lo <= v <= hi.
Proof.
  intros H. destruct r as [x|x|a b]; cbn; intros Hb; [subst; now apply clip_between|subst; now apply clip_between|].
  pose proof (clip_between a lo hi H). pose proof (clip_between b lo hi H). unfold Rmin, Rmax in Hb. destruct (Rle_dec _ _); lra.
Qed.

(** Amplitudes after [set_modules] lie between 0 and half the interval. *)
Definition amp_ok (w : wave) (lo hi : R) : Prop := exists amp off, w_set w = Some (amp, off) /\ forall v, between amp v -> 0 <= v <= (hi - lo) / 2.
Lemma wave_modules_amp w lo hi : lo <= hi -> amp_ok (wave_modules w lo hi) lo hi.
Proof.
  intros H. assert (H2 : 0 <= (hi - lo) / 2) by lra. unfold wave_modules. destruct (w_set w) as [[a o]|]; cbn; do 2 eexists; (split; [reflexivity|]); intros v Hv.
  - eapply between_clip; eassumption.
  - unfold clip_erange in Hv. destruct (w_amp w) as [x|x y]; cbn in Hv; [subst; now apply clip_between|].
    assert (Hc : forall z, 0 <= clip_ext z 0 ((hi - lo) / 2) <= (hi - lo) / 2) by (intros [|z|]; cbn; [now apply clip_between|now apply clip_between|lra]).
    pose proof (Hc x). pose proof (Hc y). unfold Rmin, Rmax in Hv. destruct (Rle_dec _ _); lra.
Qed.
(** Then the wave form lies inside the interval before it is clipped: for the step
    generator always, for the others if the interval is symmetric. *)
Lemma wave_inside w lo hi low (g : np_gen N) a f o g' x : lo <= hi -> amp_ok w lo hi -> low a = lo + a -> draw_wave w hi low g = Ok (a, f, o, g') -> -1 <= x <= 1 -> lo <= a * x + o <= hi.
Proof.
  intros Hlh (amp & off & E1 & Ha) Hlow H Hx. destruct (draw_wave_inv _ _ _ _ _ _ _ _ H) as (amp' & off' & E2 & A & F & O). rewrite E1 in E2. injection E2 as <- <-. specialize (Ha _ A). rewrite Hlow in O.
  pose proof (between_clip off (lo + a) (hi - a) o ltac:(lra) O). nra.
Qed.
Lemma np_sign_range x : -1 <= np_sign x <= 1.
Proof. unfold np_sign. destruct (rltP x 0); [lra|]. destruct (rltP 0 x); lra. Qed.
Lemma np_clip_inside x lo hi : lo <= x <= hi -> np_clip x lo hi = x.
Proof. intros H. now apply np_clip_id. Qed.
End Waves.
