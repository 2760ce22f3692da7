(** Properties C29, C30 (and C79): the Euler solver. *)
From Verif Require Import PyBase PyBaseFacts Solver_Model Solver_Spec Solver_Proofs.

(** ** C29 *)
(** One step: every component advances by the interval length times the right hand
    side at the start of the interval; the solver's time is the end of the
    interval. *)
Theorem euler_one_step :
  forall P (f : rhs P) (s : euler P) p y d t,
  eu_n s = 1%nat -> eu_p s = Some p -> eu_y s = Some y -> f p (eu_t s) y = Ok d -> length d = length y ->
  exists y', snd (integrate f s t) = Ok y' /\ eu_y (fst (integrate f s t)) = Some y' /\
    eu_t (fst (integrate f s t)) = t /\ length y' = length y /\
    forall i a b, nth_error y i = Some a -> nth_error d i = Some b -> nth_error y' i = Some (a + (t - eu_t s) * b).
Proof.
  intros P f s p y d t Hn Hp Hy Hd Hl. unfold integrate. rewrite Hp, Hy, Hn, Hd. cbn [bind].
  rewrite np_add_ok by exact Hl. cbn [fst snd eu_y eu_t]. eexists. split; [reflexivity|]. split; [reflexivity|].
  split; [reflexivity|]. split; [now apply map2_len|].
  intros i a b Ha Hb. rewrite map2_nth_error, Ha, Hb. reflexivity.
Qed.
Print Assumptions euler_one_step.

(** Sub-steps: for every number n >= 1 of sub-steps and every autonomous system the
    result is that of n explicit Euler steps of length (t - t0) / n. *)
Theorem euler_substeps_autonomous :
  forall P (f : rhs P) (g : list R -> list R) (s : euler P) p y t,
  (forall u z, f p u z = Ok (g z)) -> (forall z, length (g z) = length z) ->
  (1 <= eu_n s)%nat -> eu_p s = Some p -> eu_y s = Some y ->
  let y' := iterate (eu_n s) (euler_step g ((t - eu_t s) / INR (eu_n s))) y in
  integrate f s t = ({| eu_n := eu_n s; eu_t := t; eu_y := Some y'; eu_p := Some p |}, Ok y').
Proof.
  intros P f g s p y t Hf Hg Hn Hp Hy y'. unfold integrate. rewrite Hp, Hy.
  cbv zeta. match goal with |- match ?X with Ok _ => _ | Err _ => _ end = _ => assert (E : X = Ok y') end.
  { unfold y'. destruct (eu_n s) as [|[|n]]; [lia| |].
    - rewrite Hf. cbn [bind iterate]. rewrite np_add_ok by apply Hg. unfold euler_step.
      replace ((t - eu_t s) / INR 1) with (t - eu_t s) by (cbn; field). reflexivity.
    - rewrite <- (loop_autonomous g) with (ct := t) by exact Hg.
      generalize (S (S n)). intros m. generalize ((t - eu_t s) / INR m). intros h.
      generalize t y. induction m as [|m IH]; intros ct z; [reflexivity|]. cbn [nsteps_loop]. rewrite Hf. cbn [bind].
      destruct (np_add z (vscale h (g z))); cbn [bind]; [apply IH|reflexivity]. }
  rewrite E. reflexivity.
Qed.
Print Assumptions euler_substeps_autonomous.

(** So n sub-steps are the same as n calls with one step each. *)
Theorem euler_substeps_are_steps :
  forall P (f : rhs P) (g : list R -> list R) p y t0 h n,
  (forall u z, f p u z = Ok (g z)) -> (forall z, length (g z) = length z) -> (1 <= n)%nat ->
  eu_y (fst (integrate f {| eu_n := n; eu_t := t0; eu_y := Some y; eu_p := Some p |} (t0 + INR n * h))) =
  eu_y (integrate_all f {| eu_n := 1; eu_t := t0; eu_y := Some y; eu_p := Some p |}
         (map (fun k => t0 + INR k * h) (seq 1 n))).
Proof.
  intros P f g p y t0 h n Hf Hg Hn.
  rewrite (euler_substeps_autonomous P f g _ p y) by (auto; exact Hn). cbn [fst eu_y eu_n eu_t].
  replace ((t0 + INR n * h - t0) / INR n) with h by (field; apply not_0_INR; lia).
  assert (H : forall m k z, integrate_all f {| eu_n := 1; eu_t := t0 + INR k * h; eu_y := Some z; eu_p := Some p |}
              (map (fun k => t0 + INR k * h) (seq (S k) m)) =
            {| eu_n := 1; eu_t := t0 + INR (m + k) * h; eu_y := Some (iterate m (euler_step g h) z); eu_p := Some p |}).
  { induction m as [|m IH]; intros k z; [reflexivity|]. cbn [seq map integrate_all].
    rewrite (euler_substeps_autonomous P f g _ p z) by (auto; cbn; lia). cbn [fst eu_y eu_n eu_t iterate].
    replace ((t0 + INR (S k) * h - (t0 + INR k * h)) / INR 1) with h by (rewrite S_INR; cbn; field).
    rewrite IH. cbn [iterate]. f_equal. f_equal. rewrite !plus_INR, !S_INR. ring. }
  specialize (H n O y). replace (t0 + INR 0 * h) with t0 in H by (cbn; ring). rewrite H. reflexivity.
Qed.
Print Assumptions euler_substeps_are_steps.

(** A system equation that raises leaves the solver as it was. *)
Theorem euler_failure_no_effect :
  forall P (f : rhs P) (s : euler P) t e, snd (integrate f s t) = Err e -> fst (integrate f s t) = s.
Proof.
  intros P f s t e. unfold integrate. destruct (eu_p s); [|reflexivity]. destruct (eu_y s); [|reflexivity].
  match goal with |- context [match ?r with Ok _ => _ | Err _ => _ end] => destruct r end; [discriminate|reflexivity].
Qed.
Print Assumptions euler_failure_no_effect.

(** A constant right hand side is integrated exactly, for every number of sub-steps. *)
Theorem euler_exact_for_constant_rhs :
  forall P (f : rhs P) (s : euler P) p y c t,
  (forall u z, f p u z = Ok c) -> length c = length y ->
  (1 <= eu_n s)%nat -> eu_p s = Some p -> eu_y s = Some y ->
  snd (integrate f s t) = Ok (map2 (fun a b => a + (t - eu_t s) * b) y c).
Proof.
  intros P f s p y c t Hf Hl Hn Hp Hy.
  assert (Hloop : forall h m ct z, length z = length c ->
            nsteps_loop (f p) h m ct z = Ok (map2 (fun a b => a + (INR m * h) * b) z c)).
  { intros h. induction m as [|m IH]; intros ct z Hz; cbn [nsteps_loop].
    - f_equal. clear - Hz. revert c Hz. induction z as [|a z IH]; intros [|b c] Hz; try discriminate; [reflexivity|].
      cbn [map2]. injection Hz as Hz. rewrite <- IH by exact Hz. f_equal. cbn. ring.
    - rewrite Hf. cbn [bind]. rewrite np_add_ok by congruence. cbn [bind]. rewrite IH by (rewrite map2_len; congruence).
      f_equal. rewrite S_INR. generalize (INR m) as x. clear - Hz. revert c Hz.
      induction z as [|a z IH]; intros [|b c] Hz x; try discriminate; [reflexivity|].
      cbn [map2]. injection Hz as Hz. f_equal; [ring|now apply IH]. }
  unfold integrate. rewrite Hp, Hy. destruct (eu_n s) as [|[|n]]; [lia| |].
  - rewrite Hf. cbn [bind]. rewrite np_add_ok by exact Hl. reflexivity.
  - rewrite Hloop by congruence. cbn [snd]. f_equal.
    replace (INR (S (S n)) * ((t - eu_t s) / INR (S (S n)))) with (t - eu_t s); [reflexivity|].
    field. apply not_0_INR. lia.
Qed.
Print Assumptions euler_exact_for_constant_rhs.

Example euler_example :
  snd (integrate (fun (u : R) _ y => Ok (map (fun a => u - a) y))
        {| eu_n := 2; eu_t := 0; eu_y := Some [0; 4]; eu_p := Some 2 |} 1) = Ok [3/2; 5/2].
Proof.
  rewrite (euler_substeps_autonomous R _ (map (fun a => 2 - a)) _ 2 [0; 4]); cbn [eu_n eu_p eu_y eu_t]; auto.
  - cbn [snd iterate]. unfold euler_step. cbn. f_equal. f_equal; [lra|]. f_equal. lra.
  - intros z. apply map_length.
Qed.

(** ** C79: convergence *)
(** For a scalar autonomous system with Lipschitz right hand side the result of
    [integrate(T)] approaches the exact solution with order one in the sub-step. *)
Theorem euler_converges :
  forall P (f : rhs P) (g y : R -> R) (s : euler P) p L M T,
  (forall u z, f p u z = Ok (map g z)) ->
  (1 <= eu_n s)%nat -> eu_p s = Some p -> eu_y s = Some [y (eu_t s)] ->
  eu_t s <= T -> 0 <= L -> 0 <= M ->
  (forall a b, Rabs (g a - g b) <= L * Rabs (a - b)) ->
  (forall u, eu_t s <= u <= T -> derivable_pt_lim y u (g (y u))) ->
  (forall u v, eu_t s <= u <= T -> eu_t s <= v <= T -> Rabs (g (y u) - g (y v)) <= M * Rabs (u - v)) ->
  let h := (T - eu_t s) / INR (eu_n s) in
  exists z, snd (integrate f s T) = Ok [z] /\ Rabs (y T - z) <= exp (L * (T - eu_t s)) * (T - eu_t s) * M * h.
Proof.
  intros P f g y s p L M T Hf Hn Hp Hy HT HL HM Hlip Hsol Hsm h.
  rewrite (euler_substeps_autonomous P f (map g) s p [y (eu_t s)]) by (auto; intros; apply map_length).
  cbn [snd]. rewrite iterate_scalar. eexists. split; [reflexivity|]. fold h.
  assert (Hn0 : INR (eu_n s) <> 0) by (apply not_0_INR; lia).
  assert (Hnp : 0 < INR (eu_n s)) by (apply lt_0_INR; lia).
  assert (Hh : 0 <= h) by (unfold h, Rdiv; apply Rmult_le_pos; [lra|left; now apply Rinv_0_lt_compat]).
  assert (Hnh : INR (eu_n s) * h = T - eu_t s) by (unfold h; field; exact Hn0).
  pose proof (global_error g y L M (eu_t s) T HL HM Hlip Hsol Hsm h (eu_n s) Hh (eu_t s) (y (eu_t s))
    ltac:(lra) ltac:(lra)) as H.
  rewrite Hnh in H. replace (eu_t s + (T - eu_t s)) with T in H by ring.
  replace (y (eu_t s) - y (eu_t s)) with 0 in H by ring. rewrite Rabs_R0, Rplus_0_l in H.
  eapply Rle_trans; [exact H|].
  replace (INR (eu_n s) * (M * h * h)) with ((T - eu_t s) * M * h) by (rewrite <- Hnh; ring).
  rewrite (Rmult_assoc (exp _ * _)), (Rmult_assoc (exp _)), <- (Rmult_assoc (T - eu_t s)).
  apply Rmult_le_compat_r.
  - apply Rmult_le_pos; [apply Rmult_le_pos; lra|exact Hh].
  - eapply Rle_trans; [apply pow_exp; apply Rmult_le_pos; lra|]. right. f_equal. rewrite <- Hnh. ring.
Qed.
Print Assumptions euler_converges.

(** The hypotheses hold for y' = -y, y(0) = 1 on [0, 1]. *)
Example euler_converges_example :
  let g := fun a => - a in let y := fun t => exp (- t) in
  (forall a b, Rabs (g a - g b) <= 1 * Rabs (a - b)) /\
  (forall u, 0 <= u <= 1 -> derivable_pt_lim y u (g (y u))).
Proof.
  intros g y. split.
  - intros a b. unfold g. replace (- a - - b) with (- (a - b)) by ring. rewrite Rabs_Ropp. lra.
  - intros u _. unfold y, g. replace (- exp (- u)) with (exp (- u) * - 1) by ring.
    apply (derivable_pt_lim_comp Ropp exp); [apply (derivable_pt_lim_opp id), derivable_pt_lim_id|apply derivable_pt_lim_exp].
Qed.

(** ** C30: sample times of the sub-steps *)
(** Refuted: with two or more sub-steps the right hand side inside the integration
    interval plays no role at all; only values after its end are used. *)
Theorem euler_substeps_ignore_interval_refuted :
  forall P (f g : rhs P) (s : euler P) p t,
  (2 <= eu_n s)%nat -> eu_t s < t -> eu_p s = Some p ->
  (forall u z, t < u -> f p u z = g p u z) ->
  integrate f s t = integrate g s t.
Proof.
  intros P f g s p t Hn Ht Hp H. unfold integrate. rewrite Hp. destruct (eu_y s) as [y|]; [|reflexivity].
  destruct (eu_n s) as [|[|n]]; [lia|lia|].
  rewrite (loop_ext (f p) (g p)); [reflexivity| |exact H].
  apply Rdiv_lt_0_compat; [lra|]. apply lt_0_INR. lia.
Qed.
Print Assumptions euler_substeps_ignore_interval_refuted.

(** For the right hand side "time" the deviation from the textbook method is
    (t - t0) (t - t0 + h): it does not vanish with the number of sub-steps. *)
Theorem euler_substeps_time_shift_refuted :
  forall (s : euler unit) y t,
  (2 <= eu_n s)%nat -> eu_p s = Some tt -> eu_y s = Some [y] ->
  let h := (t - eu_t s) / INR (eu_n s) in
  snd (integrate (fun _ u z => match z with [_] => Ok [u] | _ => Err ValueError end) s t) =
  Ok [euler_scalar (fun u _ => u) h (eu_n s) (eu_t s) y + (t - eu_t s) * (t - eu_t s + h)].
Proof.
  intros [n t0 y0 p0] y t Hn Hp Hy h. cbn [eu_n eu_t eu_y eu_p] in *. rewrite Hp, Hy. unfold integrate.
  cbn [eu_n eu_t eu_y eu_p]. destruct n as [|[|n]]; [lia|lia|]. fold h. set (m := S (S n)) in *.
  match goal with |- context [nsteps_loop ?F h m t [y]] =>
    assert (E' : forall k ct z, nsteps_loop F h k ct [z] = Ok [euler_scalar (fun u _ => u) h k (ct + h) z]) end.
  { induction k as [|k IH]; intros ct z; [reflexivity|]. cbn [nsteps_loop bind].
    rewrite (np_add_ok [z] [ct + h] h eq_refl). cbn [map2 bind euler_scalar]. apply IH. }
  rewrite E'. cbn [snd]. do 2 f_equal.
  replace (t + h) with (t0 + (t - t0 + h)) by ring. rewrite euler_scalar_shift. f_equal.
  unfold h. field. apply not_0_INR. lia.
Qed.
Print Assumptions euler_substeps_time_shift_refuted.

Example euler_time_shift_example :
  snd (integrate (fun _ u z => match z with [_] => Ok [u] | _ => Err ValueError end)
        {| eu_n := 2; eu_t := 0; eu_y := Some [0]; eu_p := Some tt |} 1) = Ok [7/4].
Proof.
  rewrite (euler_substeps_time_shift_refuted _ 0); auto. cbn. f_equal. f_equal. lra.
Qed.
