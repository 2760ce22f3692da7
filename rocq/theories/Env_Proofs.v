(** Lemmas about the environment model. *)
From Verif Require Import PyBaseFacts Env_Model Env_Spec.

Section Proofs.
Context {Act Ref Obs P G W : Type}.
Variable sys : system Act Ref Obs P G W.
Notation world := (world Act Ref P G W).

Definition add_trace (w : world) (t : list (delivery Act Ref)) : world :=
  {| w_env := w_env w; w_trace := w_trace w ++ t |}.

Lemma add_trace_nil w : add_trace w [] = w.
Proof. destruct w; unfold add_trace; simpl; now rewrite app_nil_r. Qed.
Lemma add_trace_app w s t : add_trace (add_trace w s) t = add_trace w (s ++ t).
Proof. unfold add_trace; simpl; now rewrite app_assoc. Qed.

(** Callbacks: whatever happens, the environment is unchanged and the trace
    grows by a prefix of the full round; the whole round iff nobody raised. *)
Lemma call_from_spec i n ev (w : world) :
  exists m, (m <= n)%nat /\
    fst (call_from sys i n ev w) = add_trace w (map (fun j => (j, ev)) (seq i m)) /\
    (forall u, snd (call_from sys i n ev w) = Ok u -> m = n).
Proof.
  revert i w; induction n as [|n IH]; intros i w; simpl.
  - exists O; repeat split; auto. simpl; now rewrite add_trace_nil.
  - unfold mbind, call_one.
    destruct (cb_raises sys (w_trace w) i ev) as [e|].
    + exists 1%nat; repeat split; [lia|]. intros u H; discriminate.
    + destruct (IH (S i) {| w_env := w_env w; w_trace := w_trace w ++ [(i, ev)] |})
        as (m & Hm & Hf & Hs).
      exists (S m); repeat split; [lia| |].
      * rewrite Hf. unfold add_trace; simpl. now rewrite <- app_assoc.
      * intros u Hu. f_equal. eapply Hs; eauto.
Qed.

Lemma call_callbacks_spec ev (w : world) :
  exists m, (m <= n_callbacks sys)%nat /\
    fst (call_callbacks sys ev w) = add_trace w (to_all m ev) /\
    (forall u, snd (call_callbacks sys ev w) = Ok u -> m = n_callbacks sys).
Proof. apply call_from_spec. Qed.

Lemma call_callbacks_ok ev (w w' : world) u :
  call_callbacks sys ev w = (w', Ok u) -> w' = add_trace w (to_all (n_callbacks sys) ev).
Proof.
  intros H. destruct (call_callbacks_spec ev w) as (m & _ & Hf & Hs).
  rewrite H in *; simpl in *. now rewrite <- (Hs u eq_refl).
Qed.

Lemma call_callbacks_env ev (w : world) :
  w_env (fst (call_callbacks sys ev w)) = w_env w.
Proof. destruct (call_callbacks_spec ev w) as (m & _ & -> & _); reflexivity. Qed.

Lemma call_callbacks_nf ev (w : world) :
  (forall tr i e, cb_raises sys tr i e = None) ->
  call_callbacks sys ev w = (add_trace w (to_all (n_callbacks sys) ev), Ok tt).
Proof.
  intros H. unfold call_callbacks, to_all. generalize (n_callbacks sys), 0%nat.
  intros n i; revert i w; induction n as [|n IH]; intros i w; simpl.
  - now rewrite add_trace_nil.
  - unfold mbind, call_one. rewrite H, IH. unfold add_trace; simpl. now rewrite <- app_assoc.
Qed.

(** Refusal. *)
Lemma step_refused a (w : world) :
  e_terminated (w_env w) = true -> env_step sys a w = (w, Err AssertionError).
Proof. intros H. unfold env_step, mbind, get_env, lift. rewrite H; reflexivity. Qed.

Ltac dcall H :=
  match type of H with
  | context [match ?c with (_, _) => _ end] =>
      let w := fresh "w" in let r := fresh "r" in let E := fresh "E" in
      destruct c as [w r] eqn:E; destruct r as [r|r]; try discriminate
  end.

(** What a successful step did. *)
Lemma step_ok_inv a (w w' : world) out :
  env_step sys a w = (w', Ok out) ->
  exists p' state d reference g1 x reward g2 ref_next obs,
    e_terminated (w_env w) = false /\
    ps_simulate sys (e_ps (w_env w)) a = (p', Ok state) /\
    rg_get sys (e_rg (w_env w)) state = (g1, Ok reference) /\
    cm_check sys state = Ok d /\
    rw_reward sys (e_rw (w_env w)) state reference (ps_k sys p') a d = (x, Ok reward) /\
    rg_obs sys g1 state = (g2, Ok ref_next) /\
    select (e_filter (w_env w)) state = Ok obs /\
    out = {| so_state := obs; so_ref := ref_next; so_reward := reward;
             so_terminated := rle 1 d; so_truncated := e_truncated (w_env w) |} /\
    w' = {| w_env := {| e_ps := p'; e_rg := g2; e_rw := x; e_terminated := rle 1 d;
                        e_truncated := e_truncated (w_env w); e_filter := e_filter (w_env w) |};
            w_trace := (w_trace w
               ++ to_all (n_callbacks sys) (OnStepBegin (ps_k sys (e_ps (w_env w))) a))
               ++ to_all (n_callbacks sys) (OnStepEnd (ps_k sys p') state reference reward (rle 1 d)) |}.
Proof.
  unfold env_step. unfold mbind, get_env, lift, py_assert. intros H.
  destruct (e_terminated (w_env w)) eqn:Et; simpl in H; [discriminate|].
  dcall H. apply call_callbacks_ok in E. subst w0.
  dcall H. unfold call_ps in E. simpl in E.
  destruct (ps_simulate sys (e_ps (w_env w)) a) as [p' rs] eqn:Es. injection E as <- ->.
  dcall H. unfold call_rg in E. simpl in E.
  destruct (rg_get sys (e_rg (w_env w)) r0) as [g1 rg1] eqn:Eg. injection E as <- ->.
  destruct (cm_check sys r0) as [d|] eqn:Ed; [|discriminate].
  dcall H. unfold call_rw in E. simpl in E.
  destruct (rw_reward _ _ _ _ _ _ _) as [x rx] eqn:Ex in E. injection E as <- ->.
  simpl in H. dcall H. unfold call_rg in E. simpl in E.
  destruct (rg_obs sys g1 r0) as [g2 rg2] eqn:Eg2. injection E as <- ->.
  simpl in H. dcall H. apply call_callbacks_ok in E. subst w0.
  unfold filtered, mbind, get_env, lift in H. simpl in H.
  destruct (select (e_filter (w_env w)) r0) as [obs|] eqn:Ef; [|discriminate].
  simpl in H. injection H as Hw Ho.
  exists p', r0, d, r1, g1, x, r2, g2, r3, obs. repeat split; auto.
Qed.

(** What a successful reset did. *)
Lemma reset_ok_inv s (w w' : world) out :
  env_reset sys s w = (w', Ok out) ->
  exists p0 g0 x0 p' state g1 reference ref_next x1 obs,
    seed_all sys (e_ps (w_env w), e_rg (w_env w), e_rw (w_env w)) s = (p0, g0, x0) /\
    ps_reset sys p0 = (p', Ok state) /\
    rg_reset sys g0 state = (g1, Ok (reference, ref_next)) /\
    rw_reset sys x0 state reference = (x1, Ok tt) /\
    select (e_filter (w_env w)) state = Ok obs /\
    out = (obs, ref_next) /\
    w' = {| w_env := {| e_ps := p'; e_rg := g1; e_rw := x1; e_terminated := false;
                        e_truncated := e_truncated (w_env w); e_filter := e_filter (w_env w) |};
            w_trace := (w_trace w ++ to_all (n_callbacks sys) OnResetBegin)
               ++ to_all (n_callbacks sys) (OnResetEnd state reference) |}.
Proof.
  unfold env_reset. unfold mbind, m_seed, put_env. intros H.
  destruct (seed_all sys _ s) as [[p0 g0] x0] eqn:Esd. simpl in H.
  dcall H. apply call_callbacks_ok in E. subst w0.
  dcall H. unfold call_ps in E. simpl in E.
  destruct (ps_reset sys p0) as [p' rs] eqn:Es. injection E as <- ->.
  dcall H. unfold call_rg in E. simpl in E.
  destruct (rg_reset sys g0 r0) as [g1 rg1] eqn:Eg. injection E as <- ->.
  dcall H. unfold call_rw in E. simpl in E.
  destruct (rw_reset _ _ _ _) as [x1 rx] eqn:Ex in E. injection E as <- ->.
  simpl in H. dcall H. apply call_callbacks_ok in E. subst w0.
  unfold filtered, mbind, get_env, lift in H. simpl in H.
  destruct (select (e_filter (w_env w)) r0) as [obs|] eqn:Ef; [|discriminate].
  simpl in H. injection H as <- <-. destruct r1 as [reference ref_next], r2.
  exists p0, g0, x0, p', r0, g1, reference, ref_next, x1, obs. repeat split; auto.
Qed.

(** Relations between the worlds before and after a call. *)
Definition keeps {A} (Rel : world -> world -> Prop) (m : M A) := forall w, Rel w (fst (m w)).

Lemma keeps_bind {A B} (Rel : world -> world -> Prop) (m : M A) (f : A -> M B) :
  (forall x y z, Rel x y -> Rel y z -> Rel x z) ->
  keeps Rel m -> (forall a, keeps Rel (f a)) -> keeps Rel (mbind m f).
Proof.
  intros Htr Hm Hf w. unfold mbind. specialize (Hm w).
  destruct (m w) as [w1 [a|e]]; simpl in *; auto.
  eapply Htr; [exact Hm|apply Hf].
Qed.

(** Fields never written. *)
Definition same_config (w w' : world) :=
  e_filter (w_env w') = e_filter (w_env w) /\ e_truncated (w_env w') = e_truncated (w_env w).

Lemma same_config_trans x y z : same_config x y -> same_config y z -> same_config x z.
Proof. unfold same_config; intuition congruence. Qed.

Lemma cfg_callbacks ev : keeps same_config (call_callbacks sys ev).
Proof. intros w. unfold same_config. now rewrite call_callbacks_env. Qed.

Ltac cfg := repeat first
  [ apply cfg_callbacks
  | apply keeps_bind; [exact same_config_trans| | intros ?]
  | solve [ intros w; split; reflexivity ]
  | solve [ intros w; unfold call_ps, call_rg, call_rw, m_seed, put_env; simpl;
      repeat match goal with |- context [let '(_, _) := ?x in _] => destruct x end;
      repeat match goal with |- context [match ?x with (_, _) => _ end] => destruct x end;
      split; reflexivity ] ].

Lemma reset_config s : keeps same_config (env_reset sys s).
Proof. unfold env_reset, filtered. cfg. Qed.
Lemma step_config a : keeps same_config (env_step sys a).
Proof. unfold env_step, filtered. cfg. Qed.

Lemma run_op_config o (w : world) : same_config w (fst (run_op sys o w)).
Proof.
  destruct o; simpl.
  - pose proof (reset_config seed w). destruct (env_reset sys seed w) as [w' [x|e]]; auto.
  - pose proof (step_config a w). destruct (env_step sys a w) as [w' [x|e]]; auto.
  - split; reflexivity.
  - split; reflexivity.
  - pose proof (cfg_callbacks OnClose w). unfold env_close.
    destruct (call_callbacks sys OnClose w) as [w' [x|e]]; auto.
Qed.

Lemma run_config ops (w : world) : same_config w (fst (run sys ops w)).
Proof.
  revert w; induction ops as [|o ops IH]; intros w; simpl; [split; auto|].
  pose proof (run_op_config o w). destruct (run_op sys o w) as [w1 out].
  specialize (IH w1). destruct (run sys ops w1) as [w2 outs]. simpl in *.
  eapply same_config_trans; eauto.
Qed.

(** Trace of a single step, failures included: a prefix of the begin/end groups. *)
Lemma to_all_prefix m n (ev : event Act Ref) : (m <= n)%nat -> is_prefix (to_all m ev) (to_all n ev).
Proof.
  intros H. unfold to_all. exists (map (fun i => (i, ev)) (seq m (n - m))).
  rewrite <- map_app. f_equal. replace n with (m + (n - m))%nat at 1 by lia.
  apply seq_app.
Qed.


Lemma set_rg_eq g (w : world) :
  env_set_rg g w = ({| w_env := with_terminated true (with_rg g (w_env w)); w_trace := w_trace w |}, Ok tt).
Proof. reflexivity. Qed.

(** Success of the operations when nothing fails. *)
Lemma select_len (filt : list nat) (st : vec) n :
  length st = n -> (forall i, In i filt -> (i < n)%nat) -> exists r, select filt st = Ok r.
Proof. intros <- H. destruct (select_ok filt st H) as (r & Hr & _); eauto. Qed.

Lemma step_total a (w : world) n :
  never_fails sys -> states_have_length sys n ->
  (forall i, In i (e_filter (w_env w)) -> (i < n)%nat) ->
  e_terminated (w_env w) = false ->
  exists w' out, env_step sys a w = (w', Ok out).
Proof.
  intros NF [_ HL] HF Ht.
  destruct (nf_ps_sim _ NF (e_ps (w_env w)) a) as [st Hst].
  destruct (ps_simulate sys (e_ps (w_env w)) a) as [p' rs] eqn:Es; simpl in Hst; subst rs.
  unfold env_step, mbind, get_env, lift, py_assert. rewrite Ht. simpl.
  rewrite (call_callbacks_nf _ _ (nf_cb _ NF)). unfold call_ps; simpl. rewrite Es.
  unfold call_rg; simpl.
  destruct (nf_rg_get _ NF (e_rg (w_env w)) st) as [rf Hr].
  destruct (rg_get sys (e_rg (w_env w)) st) as [g1 rr]; simpl in Hr; subst rr. simpl.
  destruct (nf_cm _ NF st) as [d ->].
  unfold call_rw; simpl.
  destruct (nf_rw_reward _ NF (e_rw (w_env w)) st rf (ps_k sys p') a d) as [rw Hw].
  destruct (rw_reward _ _ _ _ _ _ _) as [x rr]; simpl in Hw; subst rr. simpl.
  destruct (nf_rg_obs _ NF g1 st) as [o Ho].
  destruct (rg_obs sys g1 st) as [g2 rr]; simpl in Ho; subst rr. simpl.
  rewrite (call_callbacks_nf _ _ (nf_cb _ NF)). simpl.
  unfold filtered, mbind, get_env, lift; simpl.
  destruct (select_len (e_filter (w_env w)) st n ltac:(eauto) HF) as [r Hr'].
  rewrite Hr'. do 2 eexists; reflexivity.
Qed.

Lemma reset_total s (w : world) n :
  never_fails sys -> states_have_length sys n ->
  (forall i, In i (e_filter (w_env w)) -> (i < n)%nat) ->
  exists w' out, env_reset sys s w = (w', Ok out).
Proof.
  intros NF [HL _] HF.
  unfold env_reset, mbind, m_seed, put_env.
  destruct (seed_all sys _ s) as [[p0 g0] x0]. simpl.
  rewrite (call_callbacks_nf _ _ (nf_cb _ NF)). unfold call_ps; simpl.
  destruct (nf_ps_reset _ NF p0) as [st Hst].
  destruct (ps_reset sys p0) as [p' rs] eqn:Es; simpl in Hst; subst rs. simpl.
  unfold call_rg; simpl.
  destruct (nf_rg_reset _ NF g0 st) as [rf Hr].
  destruct (rg_reset sys g0 st) as [g1 rr]; simpl in Hr; subst rr. simpl.
  unfold call_rw; simpl.
  destruct (nf_rw_reset _ NF x0 st (fst rf)) as [rw Hw].
  destruct (rw_reset _ _ _ _) as [x rr]; simpl in Hw; subst rr. simpl.
  rewrite (call_callbacks_nf _ _ (nf_cb _ NF)). simpl.
  unfold filtered, mbind, get_env, lift; simpl.
  destruct (select_len (e_filter (w_env w)) st n ltac:(eauto) HF) as [r Hr'].
  rewrite Hr'. do 2 eexists; reflexivity.
Qed.


(** ** Life cycle *)
Definition valid_filter (w : world) n := forall i, In i (e_filter (w_env w)) -> (i < n)%nat.

Lemma run_op_valid o (w : world) n : valid_filter w n -> valid_filter (fst (run_op sys o w)) n.
Proof. intros H i. destruct (run_op_config o w) as [-> _]. apply H. Qed.

Lemma close_nf (w : world) : never_fails sys ->
  env_close sys w = (add_trace w (to_all (n_callbacks sys) OnClose), Ok tt).
Proof. intros NF. apply call_callbacks_nf, (nf_cb _ NF). Qed.

Lemma run_op_after o (w : world) n :
  never_fails sys -> states_have_length sys n -> valid_filter w n ->
  e_terminated (w_env (fst (run_op sys o w))) =
  after (e_terminated (w_env w)) (o, snd (run_op sys o w)).
Proof.
  intros NF HL HF. destruct o as [s|a|g|r|]; simpl.
  - destruct (reset_total s w n NF HL HF) as (w' & out & E). rewrite E; simpl.
    apply reset_ok_inv in E as (p0 & g0 & x0 & p' & st & g1 & rf & rn & x1 & obs & _ & _ & _ & _ & _ & _ & ->).
    reflexivity.
  - destruct (e_terminated (w_env w)) eqn:Et.
    + rewrite (step_refused a w Et); simpl. auto.
    + destruct (step_total a w n NF HL HF Et) as (w' & out & E). rewrite E; simpl.
      apply step_ok_inv in E as (p' & st & d & rf & g1 & x & rw & g2 & rn & obs & _ & _ & _ & _ & _ & _ & _ & -> & ->).
      reflexivity.
  - reflexivity.
  - reflexivity.
  - rewrite close_nf by auto. reflexivity.
Qed.

Lemma run_after ops (w : world) n w' h :
  never_fails sys -> states_have_length sys n -> valid_filter w n ->
  run sys ops w = (w', h) ->
  e_terminated (w_env w') = fold_left after h (e_terminated (w_env w)) /\ valid_filter w' n.
Proof.
  intros NF HL. revert w w' h; induction ops as [|o ops IH]; intros w w' h HF H; simpl in H.
  - injection H as <- <-; auto.
  - pose proof (run_op_after o w n NF HL HF) as Ho.
    pose proof (run_op_valid o w n HF) as Hv.
    destruct (run_op sys o w) as [w1 out]; simpl in *.
    destruct (run sys ops w1) as [w2 outs] eqn:E. injection H as <- <-.
    simpl. rewrite <- Ho. eapply IH; eauto.
Qed.

Lemma init_spec p g r filt (w : world) :
  env_init sys p g r filt = (w, Ok tt) ->
  w = {| w_env := {| e_ps := p; e_rg := g; e_rw := r; e_terminated := true;
                     e_truncated := false; e_filter := filt |};
         w_trace := to_all (n_callbacks sys) OnSetEnv |}.
Proof. intros H. unfold env_init in H. apply call_callbacks_ok in H. exact H. Qed.

Lemma refused_iff p g r filt n ops a w0 w h :
  never_fails sys -> states_have_length sys n -> (forall i, In i filt -> (i < n)%nat) ->
  env_init sys p g r filt = (w0, Ok tt) -> run sys ops w0 = (w, h) ->
  (snd (run_op sys (Step a) w) = Raised AssertionError <-> reset_required h = true).
Proof.
  intros NF HL HF Hi Hr. apply init_spec in Hi. subst w0.
  apply (run_after _ _ n _ _ NF HL) in Hr as [Ht Hv]; [|exact HF]. simpl in Ht.
  unfold reset_required. rewrite <- Ht. simpl.
  destruct (e_terminated (w_env w)) eqn:Et.
  - rewrite (step_refused a w Et). simpl; tauto.
  - destruct (step_total a w n NF HL Hv Et) as (w' & out & ->). simpl. split; discriminate.
Qed.

Lemma succeeds_otherwise p g r filt n ops a w0 w h :
  never_fails sys -> states_have_length sys n -> (forall i, In i filt -> (i < n)%nat) ->
  env_init sys p g r filt = (w0, Ok tt) -> run sys ops w0 = (w, h) ->
  reset_required h = false -> exists o, snd (run_op sys (Step a) w) = DidStep o.
Proof.
  intros NF HL HF Hi Hr Hq. apply init_spec in Hi. subst w0.
  apply (run_after _ _ n _ _ NF HL) in Hr as [Ht Hv]; [|exact HF]. simpl in Ht.
  unfold reset_required in Hq. rewrite Hq in Ht. simpl.
  destruct (step_total a w n NF HL Hv Ht) as (w' & out & ->). simpl. eauto.
Qed.

(** The lock with failing modules. *)
Lemma run_op_lock o (w : world) b :
  (b = true -> e_terminated (w_env w) = true) ->
  (lock b (o, snd (run_op sys o w)) = true -> e_terminated (w_env (fst (run_op sys o w))) = true).
Proof.
  intros Hb. destruct o as [s|a|g|r|]; simpl.
  - discriminate.
  - destruct (env_step sys a w) as [w' [out|e]] eqn:E; simpl.
    + apply step_ok_inv in E as (p' & st & d & rf & g1 & x & rw & g2 & rn & obs & _ & _ & _ & _ & _ & _ & _ & -> & ->).
      auto.
    + intros H. apply Hb in H. rewrite (step_refused a w H) in E. injection E as <- _. auto.
  - auto.
  - auto.
  - unfold env_close. pose proof (call_callbacks_env OnClose w) as Hc.
    destruct (call_callbacks sys OnClose w) as [w' [u|e]]; simpl in *; rewrite Hc; auto.
Qed.

Lemma run_lock ops (w : world) b w' h :
  (b = true -> e_terminated (w_env w) = true) ->
  run sys ops w = (w', h) -> fold_left lock h b = true -> e_terminated (w_env w') = true.
Proof.
  revert w b w' h; induction ops as [|o ops IH]; intros w b w' h Hb H; simpl in H.
  - injection H as <- <-; auto.
  - pose proof (run_op_lock o w b Hb) as Ho.
    destruct (run_op sys o w) as [w1 out]; simpl in *.
    destruct (run sys ops w1) as [w2 outs] eqn:E. injection H as <- <-.
    simpl. eapply IH; eauto.
Qed.

Lemma locked_refused p g r filt ops a w0 w h :
  env_init sys p g r filt = (w0, Ok tt) -> run sys ops w0 = (w, h) ->
  locked h = true -> run_op sys (Step a) w = (w, Raised AssertionError).
Proof.
  intros Hi Hr Hl. apply init_spec in Hi; subst w0.
  simpl. rewrite step_refused; auto. eapply run_lock; eauto.
Qed.

Lemma refused_no_effect n a (w w' : world) :
  never_fails sys -> states_have_length sys n -> valid_filter w n ->
  run_op sys (Step a) w = (w', Raised AssertionError) -> w' = w.
Proof.
  intros NF HL HF H. simpl in H. destruct (e_terminated (w_env w)) eqn:Et.
  - rewrite (step_refused a w Et) in H. congruence.
  - destruct (step_total a w n NF HL HF Et) as (w1 & out & E). rewrite E in H. discriminate.
Qed.

(** ** Termination flag *)
Lemma run_truncated p g r filt ops w0 w h :
  env_init sys p g r filt = (w0, Ok tt) -> run sys ops w0 = (w, h) ->
  e_truncated (w_env w) = false /\ e_filter (w_env w) = filt.
Proof.
  intros Hi Hr. apply init_spec in Hi. subst w0.
  pose proof (run_config ops {| w_env := {| e_ps := p; e_rg := g; e_rw := r; e_terminated := true;
       e_truncated := false; e_filter := filt |}; w_trace := to_all (n_callbacks sys) OnSetEnv |}) as Hc.
  rewrite Hr in Hc. destruct Hc as [H1 H2]. auto.
Qed.

Lemma terminated_iff p g r filt ops w0 w h a w' o :
  env_init sys p g r filt = (w0, Ok tt) -> run sys ops w0 = (w, h) ->
  run_op sys (Step a) w = (w', DidStep o) ->
  exists p' state degree,
    ps_simulate sys (e_ps (w_env w)) a = (p', Ok state) /\
    cm_check sys state = Ok degree /\
    (so_terminated o = true <-> 1 <= degree) /\
    so_truncated o = false /\
    select filt state = Ok (so_state o).
Proof.
  intros Hi Hr Hs. destruct (run_truncated _ _ _ _ _ _ _ _ Hi Hr) as [Htr Hfl].
  simpl in Hs. destruct (env_step sys a w) as [w1 [out|e]] eqn:E; [|discriminate].
  injection Hs as <- <-.
  apply step_ok_inv in E as (p' & st & d & rf & g1 & x & rw & g2 & rn & obs & _ & H1 & _ & H2 & _ & _ & H3 & -> & _).
  exists p', st, d; simpl. rewrite <- Hfl, Htr. repeat split; auto; apply rle_true.
Qed.

(** ** Callback protocol *)
Lemma step_raise_nf a (w w' : world) e n :
  never_fails sys -> states_have_length sys n -> valid_filter w n ->
  env_step sys a w = (w', Err e) -> w' = w /\ e = AssertionError.
Proof.
  intros NF HL HF H. destruct (e_terminated (w_env w)) eqn:Et.
  - rewrite (step_refused a w Et) in H. injection H as <- <-; auto.
  - destruct (step_total a w n NF HL HF Et) as (w1 & out & E). congruence.
Qed.

Lemma run_protocol ops (w : world) n k w' h :
  never_fails sys -> states_have_length sys n -> counts_steps sys -> valid_filter w n ->
  (e_terminated (w_env w) = false -> ps_k sys (e_ps (w_env w)) = k) ->
  run sys ops w = (w', h) ->
  exists t, w_trace w' = w_trace w ++ t /\
    protocol (n_callbacks sys) (e_filter (w_env w)) k h t.
Proof.
  intros NF HL HC. revert w k w' h; induction ops as [|o ops IH]; intros w k w' h HF Hk H; simpl in H.
  - injection H as <- <-. exists []; rewrite app_nil_r. split; auto; constructor.
  - pose proof (run_op_valid o w n HF) as Hv.
    pose proof (run_op_config o w) as [Hcf _].
    destruct (run_op sys o w) as [w1 out] eqn:Eo; simpl in Hv, Hcf.
    destruct (run sys ops w1) as [w2 outs] eqn:E. injection H as <- <-.
    destruct o as [s|a|g|r|]; simpl in Eo.
    + destruct (reset_total s w n NF HL HF) as (w1' & out' & E'). rewrite E' in Eo. injection Eo as -> <-.
      apply reset_ok_inv in E' as (p0 & g0 & x0 & p' & st & g1 & rf & rn & x1 & obs & _ & Hp & _ & _ & Hsel & -> & ->).
      destruct (IH _ 0%nat _ _ Hv (fun _ => proj1 HC _ _ _ Hp) E) as (t & Ht & Hpr).
      eexists; split.
      2:{ eapply prot_reset; [simpl; exact Hsel | exact Hpr]. }
      rewrite Ht; simpl. rewrite <- !app_assoc. reflexivity.
    + destruct (env_step sys a w) as [w1' [out'|e]] eqn:E'; injection Eo as <- <-.
      * apply step_ok_inv in E' as (p' & st & d & rf & g1 & x & rw & g2 & rn & obs & Hnt & Hp & _ & _ & _ & _ & Hsel & -> & ->).
        specialize (Hk Hnt).
        assert (ps_k sys p' = S k) as Hk' by (rewrite (proj2 HC _ _ _ _ Hp); congruence).
        destruct (IH _ (S k) _ _ Hv (fun _ => Hk') E) as (t & Ht & Hpr).
        eexists; split.
        2:{ eapply prot_step; [simpl; exact Hsel | exact Hpr]. }
        rewrite Ht; simpl. rewrite Hk, Hk', <- !app_assoc. reflexivity.
      * apply step_raise_nf with (n := n) in E' as [-> ->]; auto.
        destruct (IH _ k _ _ HF Hk E) as (t & Ht & Hpr).
        exists t; split; auto. now apply prot_refused.
    + injection Eo as <- <-.
      destruct (IH _ k _ _ Hv ltac:(simpl; discriminate) E) as (t & Ht & Hpr).
      exists t; split; [exact Ht|]. now apply prot_set_rg.
    + injection Eo as <- <-.
      destruct (IH _ k _ _ Hv ltac:(simpl; discriminate) E) as (t & Ht & Hpr).
      exists t; split; [exact Ht|]. now apply prot_set_rw.
    + rewrite close_nf in Eo by auto. injection Eo as <- <-.
      destruct (IH _ k _ _ Hv Hk E) as (t & Ht & Hpr).
      eexists; split; [|apply prot_close; exact Hpr].
      rewrite Ht; simpl. now rewrite <- app_assoc.
Qed.

Lemma init_protocol p g r filt n ops w0 w h :
  never_fails sys -> states_have_length sys n -> counts_steps sys ->
  (forall i, In i filt -> (i < n)%nat) ->
  env_init sys p g r filt = (w0, Ok tt) -> run sys ops w0 = (w, h) ->
  exists t, w_trace w = to_all (n_callbacks sys) OnSetEnv ++ t /\
            protocol (n_callbacks sys) filt 0 h t.
Proof.
  intros NF HL HC HF Hi Hr. apply init_spec in Hi. subst w0.
  eapply run_protocol in Hr; eauto. simpl; discriminate.
Qed.

(** Failing simulation: begin delivered, end not. *)
Lemma failing_simulate a (w : world) p' e :
  (forall tr i ev, cb_raises sys tr i ev = None) ->
  e_terminated (w_env w) = false ->
  ps_simulate sys (e_ps (w_env w)) a = (p', Err e) ->
  run_op sys (Step a) w =
    ({| w_env := with_ps p' (w_env w);
        w_trace := w_trace w ++ to_all (n_callbacks sys) (OnStepBegin (ps_k sys (e_ps (w_env w))) a) |},
     Raised e).
Proof.
  intros HC Ht Hs. simpl. unfold env_step, mbind, get_env, lift, py_assert. rewrite Ht. simpl.
  rewrite (call_callbacks_nf _ _ HC). unfold call_ps; simpl. rewrite Hs. reflexivity.
Qed.

(** Any failure: what was delivered is a prefix of one begin/end group. *)
Lemma prefix_app_l {A} (s t u : list A) : is_prefix s t -> is_prefix s (t ++ u).
Proof. intros [r ->]. exists (r ++ u). now rewrite app_assoc. Qed.
Lemma prefix_app_r {A} (s t u : list A) : is_prefix s t -> is_prefix (u ++ s) (u ++ t).
Proof. intros [r ->]. exists r. now rewrite app_assoc. Qed.
Lemma prefix_refl {A} (s : list A) : is_prefix s s.
Proof. exists []. now rewrite app_nil_r. Qed.
Lemma prefix_nil {A} (s : list A) : is_prefix [] s.
Proof. exists s. reflexivity. Qed.

Definition step_group k a (o : option (vec * Ref * R * bool * nat)) : list (delivery Act Ref) :=
  to_all (n_callbacks sys) (OnStepBegin k a) ++
  match o with
  | Some (st, rf, rw, tm, k') => to_all (n_callbacks sys) (OnStepEnd k' st rf rw tm)
  | None => []
  end.

Lemma step_trace_prefix a (w : world) :
  exists t o, w_trace (fst (env_step sys a w)) = w_trace w ++ t /\
    is_prefix t (step_group (ps_k sys (e_ps (w_env w))) a o).
Proof.
  destruct (e_terminated (w_env w)) eqn:Et.
  { rewrite (step_refused a w Et). exists [], None. rewrite app_nil_r. split; [auto|apply prefix_nil]. }
  unfold env_step, mbind, get_env, lift, py_assert. rewrite Et. simpl.
  destruct (call_callbacks_spec (OnStepBegin (ps_k sys (e_ps (w_env w))) a) w) as (m & Hm & Hf & Hs).
  destruct (call_callbacks sys _ w) as [w1 [u|e]]; simpl in *; subst w1.
  2:{ exists (to_all m (OnStepBegin (ps_k sys (e_ps (w_env w))) a)), None. split; [reflexivity|].
      apply prefix_app_l, to_all_prefix; auto. }
  specialize (Hs u eq_refl). subst m.
  assert (forall o, is_prefix (to_all (n_callbacks sys) (OnStepBegin (ps_k sys (e_ps (w_env w))) a))
             (step_group (ps_k sys (e_ps (w_env w))) a o)) as Hpre
    by (intros; apply prefix_app_l, prefix_refl).
  unfold call_ps; simpl. destruct (ps_simulate sys _ _) as [p1 [st|e]]; simpl.
  2:{ eexists _, None; split; [reflexivity|auto]. }
  unfold call_rg; simpl. destruct (rg_get sys _ _) as [g1 [rf|e]]; simpl.
  2:{ eexists _, None; split; [reflexivity|auto]. }
  destruct (cm_check sys st) as [d|e]; simpl.
  2:{ eexists _, None; split; [reflexivity|auto]. }
  unfold call_rw; simpl. destruct (rw_reward sys _ _ _ _ _ _) as [x1 [rw|e]]; simpl.
  2:{ eexists _, None; split; [reflexivity|auto]. }
  destruct (rg_obs sys _ _) as [g2 [oo|e]]; simpl.
  2:{ eexists _, None; split; [reflexivity|auto]. }
  match goal with |- context [call_callbacks sys ?ev ?w0] =>
    destruct (call_callbacks_spec ev w0) as (m & Hm' & Hf & Hs);
    destruct (call_callbacks sys ev w0) as [w2 [u'|e]] end; simpl in *; subst w2; simpl.
  - unfold filtered, mbind, get_env, lift; simpl.
    destruct (select _ _); simpl;
    exists (step_group (ps_k sys (e_ps (w_env w))) a (Some (st, rf, rw, rle 1 d, ps_k sys p1))), (Some (st, rf, rw, rle 1 d, ps_k sys p1));
    (split; [|apply prefix_refl]); unfold step_group; rewrite <- app_assoc, (Hs u' eq_refl); reflexivity.
  - eexists _, (Some (st, rf, rw, rle 1 d, ps_k sys p1)). split; [rewrite <- app_assoc; reflexivity|].
    apply prefix_app_r, to_all_prefix; auto.
Qed.

(** A failed reset has already unlocked step. *)
Lemma failed_reset_unlocks s (w : world) p0 g0 x0 p' e :
  (forall tr i ev, cb_raises sys tr i ev = None) ->
  seed_all sys (e_ps (w_env w), e_rg (w_env w), e_rw (w_env w)) s = (p0, g0, x0) ->
  ps_reset sys p0 = (p', Err e) ->
  snd (run_op sys (Reset s) w) = Raised e /\
  e_terminated (w_env (fst (run_op sys (Reset s) w))) = false.
Proof.
  intros HC Hs Hp. simpl. unfold env_reset, mbind, m_seed, put_env. rewrite Hs. simpl.
  rewrite (call_callbacks_nf _ _ HC). unfold call_ps; simpl. rewrite Hp. auto.
Qed.

End Proofs.

(** ** State filter *)
Lemma filter_indices_spec names f idx :
  filter_indices names f = Ok idx ->
  length idx = length f /\
  forall k i, nth_error idx k = Some i -> nth_error names i = nth_error f k.
Proof.
  revert idx; induction f as [|s f IH]; simpl; intros idx H.
  - injection H as <-. split; auto. intros [|k] i; discriminate.
  - destruct (str_index s names) as [i|] eqn:E; simpl in H; [|discriminate].
    destruct (filter_indices names f) as [r|]; simpl in H; [|discriminate].
    injection H as <-. destruct (IH r eq_refl) as [Hl Hn]. simpl; split; auto.
    intros [|k] j Hj; simpl in *; [|now apply Hn].
    injection Hj as <-. now apply str_index_ok.
Qed.

Lemma filter_indices_err names f e :
  filter_indices names f = Err e -> e = ValueError /\ exists s, In s f /\ ~ In s names.
Proof.
  induction f as [|s f IH]; simpl; intros H; [discriminate|].
  destruct (str_index s names) as [i|e'] eqn:E; simpl in H.
  - destruct (filter_indices names f) as [r|]; simpl in H; [discriminate|].
    injection H as ->. destruct (IH eq_refl) as (-> & s' & H1 & H2). split; auto. exists s'; auto.
  - injection H as ->. apply str_index_err in E as [-> Hn]. split; auto. exists s; auto.
Qed.

Lemma filter_indices_ok names f :
  (forall s, In s f -> In s names) -> exists idx, filter_indices names f = Ok idx.
Proof.
  intros H. destruct (filter_indices names f) as [idx|e] eqn:E; eauto.
  apply filter_indices_err in E as (_ & s & H1 & H2). destruct (H2 (H s H1)).
Qed.

Lemma nth_error_ext {A} (l m : list A) :
  length l = length m -> (forall i, (i < length l)%nat -> nth_error l i = nth_error m i) -> l = m.
Proof.
  revert m; induction l as [|a l IH]; intros [|b m] Hl H; simpl in *; try discriminate; auto.
  pose proof (H O ltac:(lia)) as H0. injection H0 as ->. f_equal. apply IH; [lia|].
  intros i Hi. apply (H (S i)). lia.
Qed.

Lemma filter_indices_all names : NoDup names -> filter_indices names names = Ok (seq 0 (length names)).
Proof.
  intros Hnd.
  assert (forall f i, (forall k s, nth_error f k = Some s -> nth_error names (i + k) = Some s) ->
            filter_indices names f = Ok (seq i (length f))) as H.
  { induction f as [|s f IH]; intros i Hf; simpl; auto.
    rewrite (str_index_nodup s names i); auto.
    - rewrite (IH (S i)); auto. intros k s' Hk. rewrite <- (Hf (S k) s' Hk). f_equal. lia.
    - rewrite <- (Hf O s eq_refl). f_equal. lia. }
  apply (H names O). auto.
Qed.

Lemma select_seq {A} (l : list A) : select (seq 0 (length l)) l = Ok l.
Proof.
  destruct (select_ok (seq 0 (length l)) l) as (r & Hr & Hl & Hn).
  { intros i Hi. apply in_seq in Hi. lia. }
  rewrite Hr. f_equal. rewrite seq_length in Hl. apply nth_error_ext; auto.
  intros i Hi. apply Hn. rewrite Hl in Hi.
  rewrite nth_error_nth' with (d := O) by (rewrite seq_length; lia).
  rewrite seq_nth by lia. reflexivity.
Qed.

Lemma select_names_of_filter names f idx :
  filter_indices names f = Ok idx -> select idx names = Ok f.
Proof.
  revert idx; induction f as [|s f IH]; simpl; intros idx H.
  - injection H as <-; reflexivity.
  - destruct (str_index s names) as [i|] eqn:E; simpl in H; [|discriminate].
    destruct (filter_indices names f) as [r|]; simpl in H; [|discriminate].
    injection H as <-. simpl. rewrite (str_index_ok _ _ _ E), (IH r eq_refl). reflexivity.
Qed.

Lemma filter_idx_lt names f idx i :
  filter_indices names f = Ok idx -> In i idx -> (i < length names)%nat.
Proof.
  intros H Hi. apply In_nth_error in Hi as [k Hk].
  destruct (filter_indices_spec _ _ _ H) as [Hl Hn].
  apply nth_error_Some. rewrite (Hn _ _ Hk).
  apply nth_error_Some. rewrite <- Hl. apply nth_error_Some. congruence.
Qed.

Lemma init_filter_lt names f idx i :
  init_filter names f = Ok idx -> In i idx -> (i < length names)%nat.
Proof. destruct f as [[|s f]|]; unfold init_filter; intros H Hi; eapply filter_idx_lt; [exact H|exact Hi|exact H|exact Hi|exact H|exact Hi]. Qed.

(** Every filtered vector is the same selection. *)
Lemma filter_consistent (names : list string) (f : option (list string)) idx (v : list R) :
  init_filter names f = Ok idx -> length v = length names ->
  exists sel nm, select idx v = Ok sel /\ env_state_names idx names = Ok nm /\
    length sel = length nm /\
    forall k name, nth_error nm k = Some name ->
      exists i, nth_error names i = Some name /\ nth_error idx k = Some i /\
                nth_error sel k = nth_error v i.
Proof.
  intros H Hl.
  destruct (select_ok idx v) as (sel & Hs & Hls & Hns).
  { intros i Hi. rewrite Hl. eapply init_filter_lt; eauto. }
  destruct (select_ok idx names) as (nm & Hm & Hlm & Hnm).
  { intros i Hi. eapply init_filter_lt; eauto. }
  exists sel, nm. repeat split; auto; [congruence|].
  intros k name Hk.
  destruct (nth_error idx k) as [i|] eqn:E.
  - exists i. rewrite <- (Hnm _ _ E). auto.
  - exfalso. apply nth_error_None in E. assert (k < length nm)%nat by (apply nth_error_Some; congruence). lia.
Qed.

(** ** The class-level simulation settings *)
Lemma construct_all_tau taus tau c :
  env_sim_tau (fold_left construct_env (taus ++ [tau]) c) = tau.
Proof. rewrite fold_left_app. reflexivity. Qed.

Lemma construct_all_t taus :
  env_sim_t (fold_left construct_env taus sim_class_init) = 0.
Proof.
  assert (forall c, sim_step c = O -> sim_step (fold_left construct_env taus c) = O) as H.
  { induction taus as [|a l IH]; simpl; auto. }
  unfold env_sim_t. rewrite H by reflexivity. simpl. lra.
Qed.
