(** More theorems about the reference generators: wave forms, random walks, randomness,
    exceptions. *)
From Verif Require Import PyBaseFacts PyDictFacts Utils_Model Solver_Model Solver_Proofs RefGen_Model RefGen_Spec RefGen_Proofs RefGen_Proofs2 RefGen_Proofs3 RefGen_Proofs4 RefGen_Props RefGen_Props2.
Local Open Scope string_scope. Local Open Scope list_scope. Local Open Scope R_scope.

(** ** C104 Wave forms fit into the interval *)
(** The step generator: every value is the offset, or the amplitude above or below it, and
    nothing had to be clipped. *)
Theorem step_values_fit :
  forall N w lo hi v tau n (g : np_gen N) r g', numpy_ok N -> lo <= hi ->
  new_reference (kind_modules (Step w) lo hi) lo hi v tau n g = Ok (r, g') ->
  exists a o, 0 <= a <= (hi - lo) / 2 /\ lo <= o - a /\ o + a <= hi /\ Forall (fun x => x = o - a \/ x = o \/ x = o + a) r.
Proof.
  intros N w lo hi v tau n g r g' HN Hlh H. unfold new_reference in H. destruct (n <? 0)%Z; [discriminate|]. cbn [kind_modules] in H. bindh H. destruct v0 as [[[a f] o] g1].
  pose proof (wave_modules_amp w lo hi Hlh) as Ha. destruct (np_triangular N g1) as [ratio g2]. destruct (req f 0); [discriminate|]. destruct (np_uniform N g2) as [ph g3]. apply Ok_inj in H. injection H as <- _.
  pose proof (fun x => wave_inside HN _ lo hi (fun a => lo + a) g a f o g1 x Hlh Ha eq_refl E) as HI. pose proof (HI 1 ltac:(lra)) as H1. pose proof (HI (-1) ltac:(lra)) as H2.
  destruct Ha as (amp & off & Es & Ha). destruct (draw_wave_inv HN _ _ _ _ _ _ _ _ E) as (amp' & off' & Es' & A & _). rewrite Es in Es'. injection Es' as <- <-. specialize (Ha _ A).
  exists a, o. split; [exact Ha|]. split; [lra|]. split; [lra|]. apply Forall_forall. intros x Hx. apply in_map_iff in Hx. destruct Hx as (y & <- & Hy).
  assert (Hs : y = -1 \/ y = 0 \/ y = 1).
  { unfold np_roll in Hy. apply in_map_iff in Hy. destruct Hy as (i & <- & _). match goal with |- context [nth ?k ?l 0] => destruct (nth_in_or_default k l 0) as [Hin|E0]; [|rewrite E0; auto] end.
    apply in_map_iff in Hin. destruct Hin as (t & <- & _). unfold np_sign. destruct (rltP (f * py_mod t (1 / f) - ratio) 0); [auto|]. destruct (rltP 0 (f * py_mod t (1 / f) - ratio)); auto. }
  rewrite np_clip_id by (apply HI; destruct Hs as [->|[->| ->]]; lra). destruct Hs as [->|[->| ->]]; [left|right; left|right; right]; lra.
Qed.
Print Assumptions step_values_fit.
Definition toy_wave : wave := wave_new None None (VPair 1 10).
Example step_example : exists r g', new_reference (N := toy) (kind_modules (Step toy_wave) (-1) 1) (-1) 1 0 (1 / 10) 5 (0%nat : np_gen toy) = Ok (r, g').
Proof.
  apply (new_reference_ok toy_ok); [|lia]. apply kind_modules_live; [|exact eq_refl]. split; [exact I|]. split; [exact I|]. cbn. lra.
Qed.

(** Sine, triangle and saw tooth: the sampled wave, undistorted by clipping, if the interval
    is symmetric. *)
Definition undistorted (shape : R -> R) (a o lo hi : R) : Prop := forall t, -1 <= shape t <= 1 -> np_clip (a * shape t + o) lo hi = a * shape t + o.
Theorem sinus_is_sampled_sine :
  forall N w hi v tau n (g : np_gen N) r g', numpy_ok N -> 0 <= hi ->
  new_reference (kind_modules (Sinus w) (- hi) hi) (- hi) hi v tau n g = Ok (r, g') ->
  exists a f o u, 0 <= a <= hi /\ 0 <= u < 1 /\ - hi <= o - a /\ o + a <= hi /\ between (w_freq w) f /\
    forall k, (Z.of_nat k < n)%Z -> nth_error r k = Some (a * sin (2 * PI * f * (INR k * tau) + u * 2 * PI) + o).
Proof.
  intros N w hi v tau n g r g' HN Hhi H. unfold new_reference in H. destruct (Z.ltb_spec n 0) as [|Hn]; [discriminate|]. cbn [kind_modules] in H. bindh H. destruct v0 as [[[a f] o] g1].
  pose proof (wave_modules_amp w (- hi) hi ltac:(lra)) as Ha. pose proof (ok_uniform _ HN g1) as Hu. destruct (np_uniform N g1) as [u g2]. cbn [fst] in Hu. apply Ok_inj in H. injection H as <- _.
  pose proof (fun x => wave_inside HN _ (- hi) hi (fun a => - hi + a) g a f o g1 x ltac:(lra) Ha eq_refl E) as HI. pose proof (HI 1 ltac:(lra)) as H1. pose proof (HI (-1) ltac:(lra)) as H2.
  destruct Ha as (amp & off & Es & Ha). destruct (draw_wave_inv HN _ _ _ _ _ _ _ _ E) as (amp' & off' & Es' & A & F & _). rewrite Es in Es'. injection Es' as <- <-. specialize (Ha _ A).
  exists a, f, o, u. split; [lra|]. split; [exact Hu|]. split; [lra|]. split; [lra|]. split; [unfold wave_modules in F; destruct (match w_set w with None => _ | Some _ => _ end); exact F|].
  intros k Hk. rewrite nth_error_map, linspace_nth by lia. cbn [option_map]. f_equal. apply np_clip_id. apply HI. apply SIN_bound.
Qed.
Print Assumptions sinus_is_sampled_sine.
Example sinus_example : exists r g', new_reference (N := toy) (kind_modules (Sinus toy_wave) (- (1)) 1) (- (1)) 1 0 (1 / 10) 5 (0%nat : np_gen toy) = Ok (r, g').
Proof. apply (new_reference_ok toy_ok); [|lia]. apply kind_modules_live; [|exact eq_refl]. split; [exact I|]. split; [exact I|]. exact I. Qed.

(** The triangle: in each period the value rises evenly from -1 to 1 in the part [width] and
    falls evenly back in the rest; the saw tooth only rises. *)
Definition tri (width x : R) : R := let s := frac_part (x / (2 * PI)) in if rlt s width then 2 * (s / width) - 1 else 1 - 2 * ((s - width) / (1 - width)).
Lemma sawtooth_tri width x : 0 <= width -> width <= 1 -> sawtooth x width = tri width x.
Proof.
  intros H0 H1. unfold sawtooth, tri, py_mod, frac_part. pose proof PI_RGT_0 as P. set (i := IZR (Int_part (x / (2 * PI)))). set (s := x / (2 * PI) - i). assert (E : x - 2 * PI * i = 2 * PI * s) by (unfold s; field; lra). rewrite E.
  destruct (rltP (2 * PI * s) (width * 2 * PI)) as [A|A]; destruct (rltP s width) as [B|B].
  - assert (width <> 0). { intros Z. subst width. assert (W : 0 <= s). { unfold s, i. pose proof (base_Int_part (x / (2 * PI))). lra. } lra. } field. lra.
  - exfalso. assert (2 * PI * width <= 2 * PI * s) by (apply Rmult_le_compat_l; lra). lra.
  - exfalso. assert (2 * PI * s < 2 * PI * width) by (apply Rmult_lt_compat_l; lra). lra.
  - assert (width <> 1). { intros Z. subst width. pose proof (base_Int_part (x / (2 * PI))) as [_ W]. fold i in W. unfold s in B. lra. } field. lra.
Qed.
Lemma tri_range width x : 0 <= width -> width <= 1 -> -1 <= tri width x <= 1.
Proof.
  intros H0 H1. unfold tri, frac_part. pose proof (base_Int_part (x / (2 * PI))) as [A B]. set (i := IZR (Int_part (x / (2 * PI)))) in *. set (s := x / (2 * PI) - i). assert (S : 0 <= s < 1) by (unfold s; lra). destruct (rltP s width) as [C|C].
  - assert (0 <= s / width <= 1); [|lra]. assert (I : 0 < / width) by (apply Rinv_0_lt_compat; lra). split; [apply Rmult_le_pos; lra|]. unfold Rdiv. rewrite <- (Rinv_r width) by lra. apply Rmult_le_compat_r; lra.
  - assert (0 <= (s - width) / (1 - width) <= 1); [|lra]. assert (I : 0 < / (1 - width)) by (apply Rinv_0_lt_compat; lra). split; [apply Rmult_le_pos; lra|]. pose proof (Rinv_r (1 - width) ltac:(lra)) as J. pose proof (Rmult_le_compat_r (/ (1 - width)) (s - width) (1 - width) ltac:(lra) ltac:(lra)) as K. unfold Rdiv. lra.
Qed.
Theorem triangle_is_sampled_triangle :
  forall N w hi v tau n (g : np_gen N) r g', numpy_ok N -> 0 <= hi ->
  new_reference (kind_modules (Triangle w) (- hi) hi) (- hi) hi v tau n g = Ok (r, g') ->
  exists a f o u width, 0 <= a <= hi /\ 0 <= u < 1 /\ 0 <= width < 1 /\ - hi <= o - a /\ o + a <= hi /\ between (w_freq w) f /\
    forall k, (Z.of_nat k < n)%Z -> nth_error r k = Some (a * tri width (2 * PI * f * (INR k * tau) + u * 2 * PI) + o).
Proof.
  intros N w hi v tau n g r g' HN Hhi H. unfold new_reference in H. destruct (Z.ltb_spec n 0) as [|Hn]; [discriminate|]. cbn [kind_modules] in H. bindh H. destruct v0 as [[[a f] o] g1].
  pose proof (wave_modules_amp w (- hi) hi ltac:(lra)) as Ha. pose proof (ok_uniform _ HN g1) as Hu. destruct (np_uniform N g1) as [u g2]. cbn [fst] in Hu. pose proof (ok_uniform _ HN g2) as Hw. destruct (np_uniform N g2) as [width g3]. cbn [fst] in Hw. apply Ok_inj in H. injection H as <- _.
  pose proof (fun x => wave_inside HN _ (- hi) hi (fun a => - hi + a) g a f o g1 x ltac:(lra) Ha eq_refl E) as HI. pose proof (HI 1 ltac:(lra)) as H1. pose proof (HI (-1) ltac:(lra)) as H2.
  destruct Ha as (amp & off & Es & Ha). destruct (draw_wave_inv HN _ _ _ _ _ _ _ _ E) as (amp' & off' & Es' & A & F & _). rewrite Es in Es'. injection Es' as <- <-. specialize (Ha _ A).
  exists a, f, o, u, width. split; [lra|]. split; [exact Hu|]. split; [exact Hw|]. split; [lra|]. split; [lra|]. split; [unfold wave_modules in F; destruct (match w_set w with None => _ | Some _ => _ end); exact F|].
  intros k Hk. rewrite nth_error_map, linspace_nth by lia. cbn [option_map]. f_equal. rewrite sawtooth_tri by lra. apply np_clip_id. apply HI. apply tri_range; lra.
Qed.
Print Assumptions triangle_is_sampled_triangle.
Theorem sawtooth_is_sampled_sawtooth :
  forall N w hi v tau n (g : np_gen N) r g', numpy_ok N -> 0 <= hi ->
  new_reference (kind_modules (Saw w) (- hi) hi) (- hi) hi v tau n g = Ok (r, g') ->
  exists a f o u, 0 <= a <= hi /\ 0 <= u < 1 /\ - hi <= o - a /\ o + a <= hi /\ between (w_freq w) f /\
    forall k, (Z.of_nat k < n)%Z -> nth_error r k = Some (a * (2 * frac_part (f * (INR k * tau) + u) - 1) + o).
Proof.
  intros N w hi v tau n g r g' HN Hhi H. unfold new_reference in H. destruct (Z.ltb_spec n 0) as [|Hn]; [discriminate|]. cbn [kind_modules] in H. bindh H. destruct v0 as [[[a f] o] g1].
  pose proof (wave_modules_amp w (- hi) hi ltac:(lra)) as Ha. pose proof (ok_uniform _ HN g1) as Hu. destruct (np_uniform N g1) as [u g2]. cbn [fst] in Hu. apply Ok_inj in H. injection H as <- _.
  pose proof (fun x => wave_inside HN _ (- hi) hi (fun a => - hi + a) g a f o g1 x ltac:(lra) Ha eq_refl E) as HI. pose proof (HI 1 ltac:(lra)) as H1. pose proof (HI (-1) ltac:(lra)) as H2.
  destruct Ha as (amp & off & Es & Ha). destruct (draw_wave_inv HN _ _ _ _ _ _ _ _ E) as (amp' & off' & Es' & A & F & _). rewrite Es in Es'. injection Es' as <- <-. specialize (Ha _ A).
  exists a, f, o, u. split; [lra|]. split; [exact Hu|]. split; [lra|]. split; [lra|]. split; [unfold wave_modules in F; destruct (match w_set w with None => _ | Some _ => _ end); exact F|].
  intros k Hk. rewrite nth_error_map, linspace_nth by lia. cbn [option_map]. f_equal. rewrite sawtooth_tri by lra. rewrite np_clip_id by (apply HI; apply tri_range; lra). do 2 f_equal. unfold tri. pose proof PI_RGT_0 as P. replace ((2 * PI * f * (INR k * tau) + u * 2 * PI) / (2 * PI)) with (f * (INR k * tau) + u) by (field; lra).
  destruct (rltP (frac_part (f * (INR k * tau) + u)) 1) as [B|B]; [field|]. exfalso. pose proof (base_fp (f * (INR k * tau) + u)). lra.
Qed.
Print Assumptions sawtooth_is_sampled_sawtooth.
Example triangle_example : (exists r g', new_reference (N := toy) (kind_modules (Triangle toy_wave) (- (1)) 1) (- (1)) 1 0 (1 / 10) 5 (0%nat : np_gen toy) = Ok (r, g')) /\ (exists r g', new_reference (N := toy) (kind_modules (Saw toy_wave) (- (1)) 1) (- (1)) 1 0 (1 / 10) 5 (0%nat : np_gen toy) = Ok (r, g')).
Proof. split; (apply (new_reference_ok toy_ok); [|lia]; apply kind_modules_live; [|exact eq_refl]; split; [exact I|]; split; [exact I|]; exact I). Qed.

(** If the interval is not symmetric the offset may be drawn so that the wave leaves the
    interval and is cut off: with the interval [0, 1] half of every period is 0. *)
Theorem one_sided_sine_cut_refuted :
  exists N w n (g : np_gen N) r g' k a f o g1, numpy_ok N /\ w = wave_new (Some (EPair (Re (1 / 2)) (Re (1 / 2)))) None (VNum (1 / 2)) /\
    new_reference (kind_modules (Sinus w) 0 1) 0 1 0 (1 / 2) n g = Ok (r, g') /\
    draw_wave (wave_modules w 0 1) 1 (fun a => - (1) + a) g = Ok (a, f, o, g1) /\
    nth_error r k = Some 0 /\ a * sin (2 * PI * f * (INR k * (1 / 2)) + fst (np_uniform N g1) * 2 * PI) + o < 0.
Proof.
  set (w := wave_new (Some (EPair (Re (1 / 2)) (Re (1 / 2)))) None (VNum (1 / 2))).
  assert (C1 : np_clip (1 / 2) 0 ((1 - 0) / 2) = 1 / 2) by (apply np_clip_id; lra).
  assert (C2 : np_clip 0 0 1 = 0) by (apply np_clip_id; lra).
  assert (C3 : np_clip 0 (- (1) + 1 / 2) (1 - 1 / 2) = 0) by (apply np_clip_id; lra).
  assert (E : draw_wave (N := toy) (wave_modules w 0 1) 1 (fun a => - (1) + a) (1%nat : np_gen toy) = Ok (1 / 2, 1 / 2, 0, 3%nat)).
  { unfold draw_wave, wave_modules, w, wave_new, py_or, clip_erange, clip_ext. cbn [w_set w_amp w_off w_freq]. rewrite C1, C2. unfold current_value. cbn [np_uniform toy Nat.even bind fst snd clip_range].
    replace ((1 / 2 - 1 / 2) * (1 / 2) + 1 / 2) with (1 / 2) by lra. rewrite C3. do 3 f_equal. lra. }
  assert (Hs : sin (2 * PI * (1 / 2) * (INR 1 * (1 / 2)) + 1 / 2 * 2 * PI) = -1).
  { replace (2 * PI * (1 / 2) * (INR 1 * (1 / 2)) + 1 / 2 * 2 * PI) with (3 * (PI / 2)) by (cbn [INR]; field). exact sin_3PI2. }
  exists toy, w, 2%Z, (1%nat : np_gen toy). unfold new_reference. cbn [kind_modules Z.ltb Z.compare]. rewrite E. cbn [bind]. cbn [np_uniform toy Nat.even].
  do 2 eexists. exists 1%nat, (1 / 2), (1 / 2), 0, (3%nat : np_gen toy). split; [exact toy_ok|]. split; [reflexivity|]. split; [reflexivity|]. split; [reflexivity|].
  split.
  - rewrite nth_error_map, linspace_nth by (change (Z.to_nat 2) with 2%nat; lia). cbn [option_map]. rewrite Hs. f_equal. unfold np_clip. rewrite Rmax_right by lra. apply Rmin_left. lra.
  - cbn [fst Nat.even]. rewrite Hs. lra.
Qed.
Print Assumptions one_sided_sine_cut_refuted.

(** ** C105 Random walks continue over sub-episodes *)
Lemma walk_app lo hi r1 : forall v r2, walk lo hi v (r1 ++ r2) = walk lo hi v r1 ++ walk lo hi (last (walk lo hi v r1) v) r2.
Proof.
  induction r1 as [|r r1 IH]; intros v r2; [reflexivity|]. cbn [app walk]. rewrite IH. rewrite last_cons_default. reflexivity.
Qed.
Lemma last_nonempty (e : list R) a b : e <> [] -> last e a = last e b.
Proof. destruct e as [|x e]; [congruence|]. intros _. now rewrite !last_cons_default. Qed.
(** For the Wiener and the Laplace process the references of all sub-episodes form a single
    walk of increments, cut off at the margins. *)
Theorem walk_continues_over_sub_episodes :
  forall N (s : sub N) v g es g', episodes s v g es g' ->
  match s_kind s with Wiener _ _ | Laplace _ => True | _ => False end ->
  forall lo hi, s_margin s = LmPair lo hi -> exists increments, concat es = walk lo hi v increments.
Proof.
  intros N s v g es g' H Hk lo hi Hm. induction H as [v g|v g l g1 lo' hi' e g2 es g3 H1 H2 H3 H4 H5 IH]; [exists []; reflexivity|].
  destruct IH as [rs IH]. rewrite Hm in H2. injection H2 as <- <-.
  assert (E : exists r1, e = walk lo hi v r1).
  { unfold new_reference in H3. destruct (py_int l <? 0)%Z; [discriminate|]. destruct (s_kind s) as [sg i|sg|w|w|w|w]; try contradiction; bindh H3.
    - destruct (np_normal N (fst v0) (Z.to_nat (py_int l)) (snd v0)) as [r1 g4]. injection H3 as <- _. eauto.
    - destruct (np_laplace N (fst v0) (Z.to_nat (py_int l)) (snd v0)) as [r1 g4]. injection H3 as <- _. eauto. }
  destruct E as [r1 ->]. exists (r1 ++ rs). cbn [concat]. rewrite walk_app, IH. f_equal. f_equal. now apply last_nonempty.
Qed.
Print Assumptions walk_continues_over_sub_episodes.
Example walk_example : match s_kind toy_sub1 with Wiener _ _ | Laplace _ => True | _ => False end /\ s_margin toy_sub1 = LmPair (- (1 / 2)) (1 / 2) /\
  exists es g, episodes toy_sub1 (1 / 4) (0%nat : np_gen toy) es g /\ es <> [].
Proof.
  split; [exact I|]. split; [reflexivity|]. destruct (new_reference_ok toy_ok (s_kind toy_sub1) (- (1 / 2)) (1 / 2) (1 / 4) (1 / 10) (py_int 2) (0%nat : np_gen toy)) as (e & g & E).
  - split; [discriminate|]. eauto.
  - rewrite (py_int_IZR 2); lia.
  - exists [e], g. split; [|discriminate]. eapply ep_cons; [reflexivity|reflexivity|exact E| |constructor].
    destruct (new_reference_length _ _ _ _ _ _ _ _ _ toy_ok E) as [_ L]. rewrite (py_int_IZR 2) in L by lia. destruct e; [discriminate L|discriminate].
Qed.

(** ** C106 Reproducible episodes *)
(** After [n] resets a generator has spawned [n] times, whatever else happened. *)
Definition resets (ops : list op) : nat := length (filter (fun o => match o with Reset _ => true | _ => false end) ops).
Lemma sub_obs_seq {N} (s s' : sub N) o : sub_obs s = Ok (s', o) -> s_seq s' = s_seq s.
Proof. intros H. destruct (sub_obs_inv _ _ _ H) as (s1 & r & v & _ & _ & _ & -> & [[_ ->]|(_ & l & g1 & lo & hi & g2 & _ & _ & _ & ->)]); reflexivity. Qed.
Lemma run_sub_seq {N} ops : forall (s : sub N) g, run ops (GSub s) = Ok g -> exists s', g = GSub s' /\ same_config s s' /\ s_seq s' = Nat.iter (resets ops) (fun q => snd (np_spawn N q)) (s_seq s).
Proof.
  induction ops as [|o ops IH]; intros s g H; cbn [run] in H; [apply Ok_inj in H; subst; exists s; split; [reflexivity|]; split; [apply same_config_refl|reflexivity]|].
  bindh H. destruct v as [g1 v]. cbn [fst] in H.
  assert (E1 : exists s1, g1 = GSub s1 /\ same_config s s1 /\ s_seq s1 = match o with Reset _ => snd (np_spawn N (s_seq s)) | _ => s_seq s end).
  { destruct o as [i| |]; cbn [step reset get_reference get_obs] in E.
    - bindh E. bindh E0. destruct v1 as [s1 [rf o]]. apply Ok_inj in E0. subst v0. apply Ok_inj in E. injection E as <- <-. exists s1. split; [reflexivity|]. split; [now apply sub_reset_static in E1|].
      destruct (sub_reset_inv _ _ _ _ _ E1) as (v0 & seq & g' & Es & Ho & _). rewrite (sub_obs_seq _ _ _ Ho), Es. reflexivity.
    - apply Ok_inj in E. injection E as <- _. exists s. split; [reflexivity|]. split; [apply same_config_refl|reflexivity].
    - bindh E. destruct v0 as [s1 o]. apply Ok_inj in E. injection E as <- _. exists s1. split; [reflexivity|]. split; [now apply sub_obs_static in E0|]. exact (sub_obs_seq _ _ _ E0). }
  destruct E1 as (s1 & -> & C1 & S1). destruct (IH _ _ H) as (s2 & -> & C2 & S2). exists s2. split; [reflexivity|]. split; [exact (same_config_trans _ _ _ C1 C2)|]. rewrite S2, S1.
  destruct o as [i| |]; unfold resets; cbn [filter length]; try reflexivity. fold (resets ops). cbn [Nat.iter]. clear. induction (resets ops) as [|n IHn]; [reflexivity|]. exact (f_equal (fun q => snd (np_spawn N q)) IHn).
Qed.
Lemma sub_reset_same {N} init (s s' : sub N) : same_config s s' -> s_seq s' = s_seq s -> (forall sg i, s_kind s = Wiener sg i -> init <> None) -> sub_reset init s' = sub_reset init s.
Proof.
  intros (E1 & E2 & E3 & E4 & E5 & E6 & E7) Es Hk. unfold sub_reset. rewrite E4, E5, Es.
  assert (Hig : exists g g', match s_kind s, init with
           | Wiener _ i, None => match i with None => Err TypeError | Some (a, b) => let (u, g) := np_uniform N (s_gen s') in Ok (Some (put_masked (s_mask s) (a + (b - a) * u)), g) end
           | _, i => Ok (i, s_gen s') end = Ok (init, g) /\
         match s_kind s, init with
           | Wiener _ i, None => match i with None => Err TypeError | Some (a, b) => let (u, g) := np_uniform N (s_gen s) in Ok (Some (put_masked (s_mask s) (a + (b - a) * u)), g) end
           | _, i => Ok (i, s_gen s) end = Ok (init, g')).
  { destruct (s_kind s) as [sg i|sg|w|w|w|w]; try (do 2 eexists; split; reflexivity). destruct init as [r|]; [do 2 eexists; split; reflexivity|]. exfalso. exact (Hk _ _ eq_refl eq_refl). }
  destruct Hig as (g & g' & -> & ->). cbn [bind fst]. destruct (match init with Some r => pick (s_mask s) r | None => Ok 0 end) as [v|]; cbn [bind]; [|reflexivity].
  destruct (np_spawn N (s_seq s)) as [gn seq].
  assert (Eo : sub_obs (sub_with s' v (-1) (s_k s') (s_ref s') seq gn) = sub_obs (sub_with s v (-1) (s_k s) (s_ref s) seq gn)).
  { unfold sub_obs. cbn [s_len s_k sub_with s_lens s_gen s_margin s_kind s_value s_tau s_seq]. rewrite E2, E3, E4, E7.
    destruct (Z.leb_spec (-1) (Z.of_nat (s_k s'))) as [_|]; [|lia]. destruct (Z.leb_spec (-1) (Z.of_nat (s_k s))) as [_|]; [|lia].
    destruct (current_value (s_lens s) gn) as [l|]; cbn [bind]; [|reflexivity]. destruct (bounds (s_margin s)) as [b|]; cbn [bind]; [|reflexivity].
    destruct (new_reference _ _ _ _ _ _ _) as [r|]; cbn [bind]; [|reflexivity]. cbn [s_ref sub_with s_k]. destruct (nth_error (fst r) 0) as [x|]; [|reflexivity].
    unfold sub_with. cbn. rewrite E1, E2, E3, E4, E5, E6, E7. reflexivity. }
  rewrite Eo. clear Eo. destruct (sub_obs _) as [o|]; cbn [bind]; [|reflexivity]. unfold sub_get. cbn [s_mask sub_with s_value]. rewrite E5. reflexivity.
Qed.
(** The references of an episode depend on the seed and the number of the episode, not on
    how long the earlier episodes were. *)
Theorem episodes_reproducible :
  forall N (s s1 s2 : sub N) ops1 ops2 init,
  (forall sg i, s_kind s = Wiener sg i -> init <> None) ->
  run ops1 (GSub s) = Ok (GSub s1) -> run ops2 (GSub s) = Ok (GSub s2) -> resets ops1 = resets ops2 ->
  sub_reset init s1 = sub_reset init s2.
Proof.
  intros N s s1 s2 ops1 ops2 init Hk H1 H2 Hr. destruct (run_sub_seq _ _ _ H1) as (t1 & E1 & C1 & S1). destruct (run_sub_seq _ _ _ H2) as (t2 & E2 & C2 & S2). injection E1 as <-. injection E2 as <-.
  apply sub_reset_same; [|congruence|].
  - unfold same_config in *. intuition congruence.
  - intros sg i Hw. apply (Hk sg i). destruct C2 as (_ & _ & _ & <- & _). exact Hw.
Qed.
Print Assumptions episodes_reproducible.
Definition toy_reset_sub : sub toy :=
  {| s_state := "omega"; s_lens := VPair 1 2; s_margin := LmPair (-1) 1; s_kind := Laplace (VPair 1 10); s_value := 0; s_len := 1; s_k := 0; s_ref := None;
     s_mask := [true; false; false]; s_space := (-1, 1); s_tau := 1 / 10; s_seq := (1%nat : np_seq toy); s_gen := (0%nat : np_gen toy) |}.
Lemma toy_reset_wf (s : sub toy) : s_state s = "omega" -> s_mask s = [true; false; false] -> wf (p_names toy_ps) (GSub s).
Proof. intros H1 H2. constructor; rewrite H1; [cbn; auto|exact H2]. Qed.
Lemma sub_run_ok (s : sub toy) ops : sub_live s -> s_state s = "omega" -> s_mask s = [true; false; false] -> Forall (fun o => match o with Reset (Some _) => False | _ => True end) ops ->
  exists s', run (Reset None :: ops) (GSub s) = Ok (GSub s').
Proof.
  intros HL H1 H2 Ho. pose proof (toy_reset_wf s H1 H2) as W. destruct (reset_ok toy_ok (p_names toy_ps) (GSub s) None W (lv_sub _ _ HL) I) as (g1 & rf & o & E & L1 & R1 & _).
  assert (W1 : wf (p_names toy_ps) g1) by (destruct (reset_keeps (p_names toy_ps) _ _ _ _ _ E) as (_ & _ & K & _); now apply K).
  destruct (run_ok toy_ok (p_names toy_ps) ops g1 W1 L1 R1) as [g2 Hg]; [clear - Ho; induction Ho as [|x l Hx Hl IH]; constructor; [destruct x as [[r|]| |]; cbn; auto; contradiction|exact IH]|].
  assert (Hrun : run (Reset None :: ops) (GSub s) = Ok g2) by (cbn [run step]; rewrite E; exact Hg). pose proof (run_same _ _ _ Hrun) as S1. inversion S1 as [| |sa sb Hs| |]; subst. eauto.
Qed.
Example reproducible_example : exists s1 s2, run [Reset None; GetRef] (GSub toy_reset_sub) = Ok (GSub s1) /\ run [Reset None; GetRef; GetObs; GetRef; GetObs; GetRef] (GSub toy_reset_sub) = Ok (GSub s2).
Proof.
  assert (HL : sub_live toy_reset_sub) by (split; [cbn; lra|]; split; [cbn; eauto|cbn; eauto]).
  destruct (sub_run_ok toy_reset_sub [GetRef] HL eq_refl eq_refl ltac:(repeat constructor)) as [s1 E1]. destruct (sub_run_ok toy_reset_sub [GetRef; GetObs; GetRef; GetObs; GetRef] HL eq_refl eq_refl ltac:(repeat constructor)) as [s2 E2]. eauto.
Qed.

(** Not so for the Wiener process without initial reference: its initial value is drawn from
    the generator of the previous episode. *)
Definition toy_wiener : sub toy :=
  {| s_state := "omega"; s_lens := VPair 1 2; s_margin := LmPair (-1) 1; s_kind := Wiener (VPair 1 10) (Some (-1, 1)); s_value := 0; s_len := 1; s_k := 0; s_ref := None;
     s_mask := [true; false; false]; s_space := (-1, 1); s_tau := 1 / 10; s_seq := (1%nat : np_seq toy); s_gen := (0%nat : np_gen toy) |}.
Lemma py_int_one x : 1 <= x < 2 -> py_int x = 1%Z.
Proof.
  intros H. destruct (py_int_spec x ltac:(lra)) as [A B]. assert (H1 : IZR (py_int x) < IZR 2) by lra. assert (H2 : IZR 0 < IZR (py_int x)) by lra. apply lt_IZR in H1, H2. lia.
Qed.
Lemma toy_wiener_obs (s : sub toy) : same_config toy_wiener s -> (s_len s <= Z.of_nat (s_k s))%Z ->
  exists s' v, sub_obs s = Ok (s', [v]) /\ same_config toy_wiener s' /\ s_gen s' = S (S (S (s_gen s))) /\ s_len s' = 1%Z /\ s_k s' = 1%nat.
Proof.
  intros Hs Hk. pose proof Hs as (E1 & E2 & E3 & E4 & E5 & E6 & E7). unfold sub_obs. destruct (Z.leb_spec (s_len s) (Z.of_nat (s_k s))) as [_|]; [|lia]. rewrite E2, E3, E4. cbn [s_lens toy_wiener s_margin s_kind bounds].
  assert (Ec : exists x, current_value (VPair 1 2) (s_gen s) = Ok (x, S (s_gen s)) /\ py_int x = 1%Z).
  { cbn -[py_int]. destruct (Nat.even (s_gen s)); eexists; (split; [reflexivity|]); apply py_int_one; lra. }
  destruct Ec as (x & -> & Hx). cbn [bind fst snd]. rewrite Hx. unfold new_reference. cbn [Z.ltb Z.compare]. unfold draw_sigma, current_value. cbn [np_uniform toy bind fst snd np_normal]. change (Z.to_nat 1) with 1%nat. cbn [repeat walk sub_with s_ref s_k nth_error].
  do 2 eexists. split; [reflexivity|]. split; [|cbn; auto]. exact Hs.
Qed.
Lemma toy_wiener_reset (s : sub toy) : same_config toy_wiener s ->
  exists s' o, sub_reset None s = Ok (s', (put_masked [true; false; false] (-1 + (1 - -1) * fst (np_uniform toy (s_gen s))), o)) /\ same_config toy_wiener s' /\ s_gen s' = S (S (S (s_seq s))) /\ s_len s' = 1%Z /\ s_k s' = 1%nat.
Proof.
  intros Hs. pose proof Hs as (E1 & E2 & E3 & E4 & E5 & E6 & E7). unfold sub_reset. rewrite E4, E5. cbn [s_kind toy_wiener s_mask]. destruct (np_uniform toy (s_gen s)) as [u g]. cbn [bind fst put_masked map pick masked]. cbn [np_spawn toy].
  set (s1 := sub_with s (-1 + (1 - -1) * u) (-1) (s_k s) (s_ref s) (S (s_seq s)) (s_seq s)).
  destruct (toy_wiener_obs s1) as (s' & v & Eo & C & G & L & K); [exact Hs|cbn; lia|]. rewrite Eo. cbn [bind fst snd].
  exists s', [v]. split; [|auto]. unfold sub_get, s1. cbn [s_mask sub_with s_value]. rewrite E5. reflexivity.
Qed.
Theorem wiener_reset_depends_on_past_refuted :
  exists N (s s1 s2 : sub N) ops1 ops2 t1 t2 rf1 rf2 o1 o2, numpy_ok N /\ run ops1 (GSub s) = Ok (GSub s1) /\ run ops2 (GSub s) = Ok (GSub s2) /\ resets ops1 = resets ops2 /\
    sub_reset None s1 = Ok (t1, (rf1, o1)) /\ sub_reset None s2 = Ok (t2, (rf2, o2)) /\ rf1 <> rf2.
Proof.
  destruct (toy_wiener_reset toy_wiener (same_config_refl _)) as (s1 & o & E1 & C1 & G1 & L1 & K1).
  destruct (toy_wiener_obs s1 C1) as (s2 & v & E2 & C2 & G2 & _); [rewrite L1, K1; lia|].
  destruct (toy_wiener_reset s1 C1) as (t1 & o1 & R1 & _). destruct (toy_wiener_reset s2 C2) as (t2 & o2 & R2 & _).
  assert (H1 : run [Reset None] (GSub toy_wiener) = Ok (GSub s1)) by (cbn [run step reset]; rewrite E1; reflexivity).
  assert (H2 : run [Reset None; GetObs] (GSub toy_wiener) = Ok (GSub s2)) by (cbn [run step reset]; rewrite E1; cbn [bind fst snd step get_obs]; rewrite E2; reflexivity).
  exists toy, toy_wiener, s1, s2, [Reset None], [Reset None; GetObs], t1, t2. do 2 eexists. exists o1, o2. split; [exact toy_ok|]. split; [exact H1|]. split; [exact H2|]. split; [reflexivity|]. split; [exact R1|]. split; [exact R2|].
  rewrite G2, G1. change (s_seq toy_wiener) with 1%nat. cbn. intros E. injection E as E. lra.
Qed.
Print Assumptions wiener_reset_depends_on_past_refuted.

(** ** C107 Wrong use *)
(** Asking for an observation before the first reset raises. *)
Theorem observation_before_reset_raises :
  forall N ps (s s1 : sub N), numpy_ok N -> built (GSub s) -> lens_ok (s_lens s) -> sub_modules ps s = Ok s1 -> sub_obs s1 = Err TypeError.
Proof.
  intros N ps s s1 HN Hb HL H. remember (GSub s) as g eqn:Eg. destruct Hb as [s0 v|n|state lens m0 k seq s0 Hk Hs|subs0 p range seq g Hall Hs|subs0 Hall]; try discriminate.
  - injection Eg as ->. unfold sub_new in Hs. destruct (np_spawn N seq) as [gn seq']. bindh Hs. destruct v as [l g1]. apply Ok_inj in Hs. subst s. cbn [s_lens] in HL.
    destruct (current_value_in HN _ _ _ _ HL E) as [Hl _]. apply py_int_pos in Hl. unfold sub_modules in H. bindh H. bindh H. apply Ok_inj in H. subst s1.
    unfold sub_obs. cbn [s_len s_k fst]. destruct (Z.leb_spec (py_int l) (Z.of_nat 0)) as [|_]; [lia|]. reflexivity.
  - subst g. unfold switched_new in Hs. destruct subs0 as [|g0 l]; [discriminate|]. bindh Hs. destruct (np_spawn N seq) as [gn seq']. apply Ok_inj in Hs. discriminate.
Qed.
Print Assumptions observation_before_reset_raises.
Example before_reset_example : sub_obs toy_sub1 = Err TypeError.
Proof. apply (observation_before_reset_raises toy toy_ps toy_sub); [exact toy_ok|exact toy_sub_built|cbn; lra|exact toy_sub_announced]. Qed.

(** A sub-episode length below one raises at the reset. *)
Theorem zero_length_raises :
  forall N (s : sub N) init x lo hi, s_lens s = VNum x -> 0 <= x < 1 -> s_margin s = LmPair lo hi -> kind_live (s_kind s) -> numpy_ok N ->
  (init = None -> forall sg i, s_kind s <> Wiener sg i) -> match init with Some r => exists v, pick (s_mask s) r = Ok v | None => True end ->
  sub_reset init s = Err IndexError.
Proof.
  intros N s init x lo hi Hl Hx Hm Hk HN Hw Hp. unfold sub_reset.
  assert (Hig : exists g, match s_kind s, init with
           | Wiener _ i, None => match i with None => Err TypeError | Some (a, b) => let (u, g) := np_uniform N (s_gen s) in Ok (Some (put_masked (s_mask s) (a + (b - a) * u)), g) end
           | _, i => Ok (i, s_gen s) end = Ok (init, g)).
  { destruct (s_kind s) as [sg i|sg|w|w|w|w]; try (eexists; reflexivity). destruct init as [r|]; [eexists; reflexivity|]. exfalso. exact (Hw eq_refl _ _ eq_refl). }
  destruct Hig as [g ->]. cbn [bind fst]. assert (Ev : exists v, match init with Some r => pick (s_mask s) r | None => Ok 0 end = Ok v) by (destruct init; eauto). destruct Ev as [v ->]. cbn [bind].
  destruct (np_spawn N (s_seq s)) as [gn seq]. unfold sub_obs. cbn [s_len s_k sub_with s_lens s_gen s_margin s_kind s_value s_tau s_seq]. destruct (Z.leb_spec (-1) (Z.of_nat (s_k s))) as [_|]; [|lia]. rewrite Hl, Hm. cbn [current_value bind fst snd bounds].
  assert (Ex : py_int x = 0%Z). { destruct (py_int_spec x ltac:(lra)) as [A B]. assert (H1 : IZR (py_int x) < IZR 1) by lra. assert (H2 : IZR (-1) < IZR (py_int x)) by lra. apply lt_IZR in H1, H2. lia. }
  rewrite Ex. destruct (new_reference_ok HN (s_kind s) lo hi v (s_tau s) 0%Z gn Hk ltac:(lia)) as (r & g' & E). rewrite E. cbn [bind fst snd s_ref sub_with s_k].
  destruct (new_reference_length _ _ _ _ _ _ _ _ _ HN E) as [_ L]. destruct r; [reflexivity|discriminate].
Qed.
Print Assumptions zero_length_raises.
Example zero_length_example : sub_reset (Some [1; 2; 3]) {| s_state := "omega"; s_lens := VNum (1 / 2); s_margin := LmPair (-1) 1; s_kind := Laplace (VPair 1 10); s_value := 0; s_len := 0; s_k := 0; s_ref := None;
     s_mask := [true; false; false]; s_space := (-1, 1); s_tau := 1 / 10; s_seq := (1%nat : np_seq toy); s_gen := (0%nat : np_gen toy) |} = Err IndexError.
Proof. eapply (zero_length_raises toy); [reflexivity|lra|reflexivity|cbn; eauto|exact toy_ok|discriminate|cbn; eauto]. Qed.

(** A single number as amplitude, offset or sigma range passes the constructor and the
    announcement and raises at the first reset. *)
Definition scalar_kind (k : kind) : Prop :=
  match k with
  | Wiener sg _ | Laplace sg => exists x, sg = VNum x
  | Sinus w | Triangle w | Saw w | Step w => w_set w = None /\ exists x, w_amp w = ENum x
  end.
Theorem scalar_ranges_raise :
  forall N (s : sub N) lo hi, scalar_kind (s_kind s) -> lens_ok (s_lens s) -> numpy_ok N ->
  forall l g1 v, current_value (s_lens s) (s_gen s) = Ok (l, g1) -> new_reference (kind_modules (s_kind s) lo hi) lo hi v (s_tau s) (py_int l) g1 = Err TypeError.
Proof.
  intros N s lo hi Hk HL HN l g1 v H. destruct (current_value_in HN _ _ _ _ HL H) as [Hl _]. apply py_int_pos in Hl. unfold new_reference. destruct (Z.ltb_spec (py_int l) 0) as [|_]; [lia|].
  assert (Hw : forall w low, w_set w = None -> (exists x, w_amp w = ENum x) -> draw_wave (wave_modules w lo hi) hi low g1 = Err TypeError).
  { intros w low Hs (x & Hx). unfold draw_wave, wave_modules. rewrite Hs, Hx. reflexivity. }
  destruct (s_kind s) as [sg i|sg|w|w|w|w]; cbn [scalar_kind kind_modules] in *.
  - destruct Hk as [x ->]. destruct i; reflexivity.
  - destruct Hk as [x ->]. reflexivity.
  - destruct Hk as [Hs Hx]. rewrite (Hw _ _ Hs Hx). reflexivity.
  - destruct Hk as [Hs Hx]. rewrite (Hw _ _ Hs Hx). reflexivity.
  - destruct Hk as [Hs Hx]. rewrite (Hw _ _ Hs Hx). reflexivity.
  - destruct Hk as [Hs Hx]. rewrite (Hw _ _ Hs Hx). reflexivity.
Qed.
Print Assumptions scalar_ranges_raise.
Example scalar_example : scalar_kind (Sinus (wave_new (Some (ENum 1)) None (VPair 1 10))) /\ scalar_kind (Laplace (VNum 1)).
Proof. split; [|cbn; eauto]. split; [reflexivity|]. exists 1. cbn. destruct (reqP 1 0); [lra|reflexivity]. Qed.
