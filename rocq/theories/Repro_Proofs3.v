(** Proofs for [Repro_Props]: reference generators and the environment. *)
From Verif Require Import PyBaseFacts Conv_Model Solver_Model Scipy_Model Scipy_Spec Wrap_Model RefGen_Model Constraint_Model Reward_Model Preset_Model Env_Model Full_Model Full_Spec Repro_Spec Repro_Proofs Repro_Proofs2.

(** ** Reference generators *)
Section Gen.
Context {N : numpy}.
(** Equal up to what changes while the generator is used. *)
Definition like (s s' : sub N) : Prop := exists v l k r q g, s' = sub_with s v l k r q g.
Definition glike1 (g g' : gen N) : Prop := match g, g' with GSub s, GSub s' => like s s' | _, _ => False end.
Definition glike (g g' : gen N) : Prop :=
  match g, g' with GSub s, GSub s' => like s s' | GMultiple m l, GMultiple m' l' => m = m' /\ Forall2 glike1 l l' | _, _ => False end.
Lemma like_with s s' v l k r q g : like s s' -> like s (sub_with s' v l k r q g).
Proof. intros (v0 & l0 & k0 & r0 & q0 & g0 & ->). now exists v, l, k, r, q, g. Qed.
Lemma sub_obs_like s s' s1 o : like s s' -> sub_obs s' = Ok (s1, o) -> like s s1.
Proof.
  intros H E. unfold sub_obs in E. revert E. match goal with |- (do s1 <- ?x; _) = _ -> _ => destruct x as [s2|] eqn:G end; cbn [bind]; [|discriminate]. intros E.
  assert (H2 : like s s2).
  { destruct (s_len s' <=? _)%Z; [|congruence]. destruct (current_value _ _) as [x1|]; cbn [bind] in G; [|discriminate G]. destruct (bounds _) as [b|]; cbn [bind] in G; [|discriminate G].
    destruct (new_reference _ _ _ _ _ _ _) as [r|]; cbn [bind] in G; [|discriminate G]. injection G as <-. now apply like_with. }
  destruct (s_ref s2) as [r|]; [|discriminate E]. destruct (nth_error r (s_k s2)); [|discriminate E]. injection E as <- <-. now apply like_with.
Qed.
Lemma sub_reset_like s s' i s1 o : like s s' -> sub_reset i s' = Ok (s1, o) -> like s s1.
Proof.
  intros H E. unfold sub_reset in E. revert E. match goal with |- (do ig <- ?x; _) = _ -> _ => destruct x as [ig|] end; cbn [bind]; [|discriminate].
  match goal with |- (do v <- ?x; _) = _ -> _ => destruct x as [v|] end; cbn [bind]; [|discriminate]. destruct (np_spawn N (s_seq s')) as [gn seq]. intros E.
  destruct (sub_obs _) as [[s2 r]|] eqn:G in E; cbn [bind] in E; [|discriminate E]. injection E as <- _. eapply sub_obs_like; [|exact G]. now apply like_with.
Qed.
Lemma sub_reseed_like s s' h : like s s' -> like s (sub_reseed h s').
Proof. apply like_with. Qed.
(** A seeded reset starts afresh. *)
Lemma sub_restart s s1 s2 h : like s s1 -> like s s2 -> sub_reset None (sub_reseed h s1) = sub_reset None (sub_reseed h s2).
Proof.
  intros (v1 & l1 & k1 & r1 & q1 & g1 & ->) (v2 & l2 & k2 & r2 & q2 & g2 & ->). unfold sub_reset, sub_reseed, sub_with, sub_get. cbn [s_kind s_gen s_mask s_seq s_k s_ref s_value s_state s_lens s_margin s_space s_tau s_len fst snd].
  match goal with |- bind ?x _ = _ => destruct x as [ig|] end; cbn [bind]; [|reflexivity].
  match goal with |- bind ?x _ = _ => destruct x as [v|] end; cbn [bind]; [|reflexivity]. destruct (np_spawn N (fst h)) as [gn seq].
  unfold sub_obs, sub_with. cbn [s_kind s_gen s_mask s_seq s_k s_ref s_value s_state s_lens s_margin s_space s_tau s_len fst snd].
  assert (F : forall k, (-1 <=? Z.of_nat k)%Z = true) by (intros k; apply Z.leb_le; lia). rewrite !F. reflexivity.
Qed.

Lemma each_like {B} (f : gen N -> res (gen N * B)) l : (forall g g' g1 o, glike1 g g' -> f g' = Ok (g1, o) -> glike1 g g1) ->
  forall l' l1 o, Forall2 glike1 l l' -> each f l' = Ok (l1, o) -> Forall2 glike1 l l1.
Proof.
  intros Hf. induction l as [|g l IH]; intros l' l1 o H E; inversion H as [|? g' ? l2 H1 H2]; subst; cbn [each] in E; [injection E as <- <-; constructor|].
  destruct (f g') as [[y oy]|] eqn:Ey; cbn [bind] in E; [|discriminate E]. destruct (each f l2) as [[ys oys]|] eqn:Es; cbn [bind fst snd] in E; [|discriminate E]. injection E as <- <-. constructor; eauto.
Qed.
Lemma reset_like g g' i g1 o : glike g g' -> RefGen_Model.reset i g' = Ok (g1, o) -> glike g g1.
Proof.
  assert (B1 : forall g g' g1 o, glike1 g g' -> RefGen_Model.reset i g' = Ok (g1, o) -> glike1 g g1).
  { intros [| |s| |] [| |s'| |] g2 o2 H E; try contradiction. cbn [RefGen_Model.reset] in E. destruct (sub_reset i s') as [[s1 r]|] eqn:G; cbn [bind fst snd] in E; [|discriminate E].
    injection E as <- <-. eapply sub_reset_like; eassumption. }
  destruct g as [| |s| |m l], g' as [| |s'| |m' l']; intros H E; try contradiction; [exact (B1 (GSub s) (GSub s') g1 o H E)|].
  destruct H as [<- H]. cbn [RefGen_Model.reset] in E. destruct (each (RefGen_Model.reset i) l') as [[l1 r]|] eqn:G; cbn [bind fst snd] in E; [|discriminate E].
  destruct (sum_arrays _ _); cbn [bind] in E; [|discriminate E]. injection E as <- _. split; [reflexivity|]. eapply each_like; eassumption.
Qed.
Lemma obs_like g g' g1 o : glike g g' -> get_obs g' = Ok (g1, o) -> glike g g1.
Proof.
  assert (B1 : forall g g' g1 o, glike1 g g' -> get_obs g' = Ok (g1, o) -> glike1 g g1).
  { intros [| |s| |] [| |s'| |] g2 o2 H E; try contradiction. cbn [get_obs] in E. destruct (sub_obs s') as [[s1 r]|] eqn:G; cbn [bind fst snd] in E; [|discriminate E].
    injection E as <- <-. eapply sub_obs_like; eassumption. }
  destruct g as [| |s| |m l], g' as [| |s'| |m' l']; intros H E; try contradiction; [exact (B1 (GSub s) (GSub s') g1 o H E)|].
  destruct H as [<- H]. cbn [get_obs] in E. destruct (each get_obs l') as [[l1 r]|] eqn:G; cbn [bind fst snd] in E; [|discriminate E].
  injection E as <- _. split; [reflexivity|]. eapply each_like; eassumption.
Qed.
Lemma get_like g g' g1 o : glike g g' -> get_reference g' = Ok (g1, o) -> glike g g1.
Proof.
  assert (B1 : forall g g' g1 o, glike1 g g' -> get_reference g' = Ok (g1, o) -> glike1 g g1).
  { intros [| |s| |] [| |s'| |] g2 o2 H E; try contradiction. injection E as <- <-. exact H. }
  destruct g as [| |s| |m l], g' as [| |s'| |m' l']; intros H E; try contradiction; [exact (B1 (GSub s) (GSub s') g1 o H E)|].
  destruct H as [<- H]. cbn [get_reference] in E. destruct (each get_reference l') as [[l1 r]|] eqn:G; cbn [bind fst snd] in E; [|discriminate E].
  destruct (sum_arrays _ _); cbn [bind] in E; [|discriminate E]. injection E as <- _. split; [reflexivity|]. eapply each_like; eassumption.
Qed.
Definition reseed_list (h : list nat -> np_seq N * np_gen N) : nat -> list (gen N) -> list (gen N) :=
  fix go i l := match l with [] => [] | x :: l' => g_reseed h [i] x :: go (S i) l' end.
Lemma reseed_multiple h m l : g_reseed h [] (GMultiple m l) = GMultiple m (reseed_list h 0 l).
Proof. cbn [g_reseed]. f_equal. Qed.
Lemma seed_like g g' h : glike g g' -> glike g (g_reseed h [] g').
Proof.
  destruct g as [| |s| |m l], g' as [| |s'| |m' l']; intros H; try contradiction; [exact (sub_reseed_like s s' (h []) H)|].
  destruct H as [<- H]. rewrite reseed_multiple. split; [reflexivity|]. generalize 0%nat. induction H as [|a b l l' H1 H2 IH]; intros i; cbn [reseed_list]; constructor; [|apply IH].
  destruct a as [| |s| |], b as [| |s'| |]; try contradiction. exact (sub_reseed_like s s' (h [i]) H1).
Qed.
Lemma gen_restart g g1 g2 h : glike g g1 -> glike g g2 -> RefGen_Model.reset None (g_reseed h [] g1) = RefGen_Model.reset None (g_reseed h [] g2).
Proof.
  destruct g as [| |s| |m l], g1 as [| |s1| |m1 l1]; intros H1; try contradiction; destruct g2 as [| |s2| |m2 l2]; intros H2; try contradiction.
  - cbn [g_reseed RefGen_Model.reset]. rewrite (sub_restart s s1 s2 (h []) H1 H2). reflexivity.
  - destruct H1 as [<- H1], H2 as [<- H2]. rewrite !reseed_multiple. cbn [RefGen_Model.reset].
    assert (K : forall i, each (RefGen_Model.reset None) (reseed_list h i l1) = each (RefGen_Model.reset None) (reseed_list h i l2)); [|now rewrite K].
    revert l2 H2. induction H1 as [|a b l l1 A1 A2 IH]; intros l2 H2 i; inversion H2 as [|? c ? l3 C1 C2]; subst; [reflexivity|]. cbn [reseed_list each].
    destruct a as [| |s| |], b as [| |s1| |]; try contradiction. destruct c as [| |s2| |]; try contradiction. rewrite (IH l3 C2 (S i)).
    cbn [g_reseed RefGen_Model.reset]. rewrite (sub_restart s s1 s2 (h [i]) A1 C1). reflexivity.
Qed.
Lemma like_refl s : like s s.
Proof. exists (s_value s), (s_len s), (s_k s), (s_ref s), (s_seq s), (s_gen s). destruct s. reflexivity. Qed.
Lemma new_like r seqs ps g g1 : new_generator r seqs = Ok g -> set_modules ps g = Ok g1 -> glike g1 g1.
Proof.
  assert (W : forall r q g g1, new_wiener r q = Ok g -> set_modules ps g = Ok g1 -> glike1 g1 g1).
  { intros r0 q g0 g2 E1 E2. unfold new_wiener in E1. destruct (sub_new _ _ _ _ q) as [s|]; cbn [bind] in E1; [|discriminate E1]. injection E1 as <-. cbn [set_modules] in E2.
    destruct (sub_modules ps s) as [s1|]; cbn [bind] in E2; [|discriminate E2]. injection E2 as <-. apply like_refl. }
  intros E1 E2. destruct r as [r|l]; cbn [new_generator] in E1; [pose proof (W _ _ _ _ E1 E2) as H; destruct g1; try contradiction; exact H|].
  destruct (new_wieners l seqs) as [gs|] eqn:G; cbn [bind] in E1; [|discriminate E1]. injection E1 as <-. unfold multiple_new in E2. cbn [set_modules] in E2.
  destruct (each _ gs) as [[gs1 u]|] eqn:Es in E2; cbn [bind fst] in E2; [|discriminate E2].
  assert (K : Forall2 glike1 gs1 gs1).
  { clear E2. revert seqs gs gs1 u G Es. induction l as [|r l IH]; intros seqs gs gs1 u G Es; cbn [new_wieners] in G; [injection G as <-; injection Es as <- _; constructor|].
    destruct (new_wiener r (seqs 0%nat)) as [x|] eqn:Ex; cbn [bind] in G; [|discriminate G]. destruct (new_wieners l _) as [xs|] eqn:Exs in G; cbn [bind] in G; [|discriminate G]. injection G as <-.
    cbn [each] in Es. destruct (set_modules ps x) as [y|] eqn:Ey; cbn [bind] in Es; [|discriminate Es]. destruct (each _ xs) as [[ys v]|] eqn:Eys in Es; cbn [bind fst snd] in Es; [|discriminate Es].
    injection Es as <- _. constructor; [eapply W; eassumption|eapply IH; eassumption]. }
  destruct gs1 as [|x gs1]; [discriminate E2|]. destruct (py_assert _) in E2; cbn [bind] in E2; [|discriminate E2]. injection E2 as <-. split; [reflexivity|exact K].
Qed.
End Gen.

(** ** Calls on the environment *)
Section Calls.
Context {Act Ref Obs P G W : Type} (sys : system Act Ref Obs P G W) (Hcb : forall tr i ev, cb_raises sys tr i ev = None).
Lemma callbacks_silent ev w : exists tr, call_callbacks sys ev w = ({| w_env := w_env w; w_trace := tr |}, Ok tt).
Proof.
  unfold call_callbacks. generalize 0%nat. generalize (n_callbacks sys). intros m. revert w. induction m as [|m IH]; intros [e tr] i; cbn [call_from]; [exists tr; reflexivity|].
  unfold mbind, call_one. cbn [w_trace]. rewrite Hcb. cbn [w_env]. apply (IH {| w_env := e; w_trace := tr ++ [(i, ev)] |}).
Qed.
Lemma reset_parts z w w1 x : env_reset sys z w = (w1, Ok x) -> exists p g r p1 st g1 rr r1, seed_all sys (e_ps (w_env w), e_rg (w_env w), e_rw (w_env w)) z = (p, g, r) /\
  ps_reset sys p = (p1, Ok st) /\ rg_reset sys g st = (g1, Ok rr) /\ rw_reset sys r st (fst rr) = (r1, Ok tt) /\ select (e_filter (w_env w)) st = Ok (fst x) /\ snd x = snd rr /\
  w_env w1 = {| e_ps := p1; e_rg := g1; e_rw := r1; e_terminated := false; e_truncated := e_truncated (w_env w); e_filter := e_filter (w_env w) |}.
Proof.
  intros E. destruct w as [e tr]. cbn [w_env]. unfold env_reset, mbind at 1, m_seed, put_env in E. cbn [w_env w_trace] in E.
  destruct (seed_all sys (e_ps e, e_rg e, e_rw e) z) as [[p g] r] eqn:Es. set (e1 := with_ps p (with_rg g (with_rw r e))) in *.
  unfold mbind at 1 in E. destruct (callbacks_silent OnResetBegin {| w_env := e1; w_trace := tr |}) as (t1 & C1). rewrite C1 in E. cbn [w_env] in E.
  unfold mbind at 1 in E. cbn [w_env w_trace] in E. unfold mbind at 1, call_ps in E. cbn [w_env w_trace e_ps with_terminated] in E.
  change (e_ps e1) with p in E. destruct (ps_reset sys p) as [p1 [st|er]] eqn:Ep; cbn beta iota in E; [|discriminate E].
  unfold mbind at 1, call_rg in E. cbn [w_env w_trace e_rg with_ps with_terminated] in E. change (e_rg e1) with g in E.
  destruct (rg_reset sys g st) as [g1 [rr|er]] eqn:Eg; cbn beta iota in E; [|discriminate E].
  unfold mbind at 1, call_rw in E. cbn [w_env w_trace e_rw with_ps with_rg with_terminated] in E. change (e_rw e1) with r in E.
  destruct (rw_reset sys r st (fst rr)) as [r1 [[]|er]] eqn:Er; cbn beta iota in E; [|discriminate E].
  unfold mbind at 1 in E. match type of E with context [call_callbacks sys ?ev ?w] => destruct (callbacks_silent ev w) as (t2 & C2); rewrite C2 in E end. cbn [w_env] in E.
  unfold filtered in E. unfold mbind, get_env, Env_Model.lift, ret in E. unfold e1 in E. cbn [w_env e_filter with_ps with_rg with_rw with_terminated] in E.
  destruct (select (e_filter e) st) as [ob|er] eqn:Ef; [|discriminate E]. injection E as <- <-.
  exists p, g, r, p1, st, g1, rr, r1. cbn [w_env fst snd]. repeat (split; [first [reflexivity|assumption]|]). reflexivity.
Qed.
Lemma step_parts a w w1 x : env_step sys a w = (w1, Ok x) -> exists p1 st g1 ref d r1 g2 ob, e_terminated (w_env w) = false /\ ps_simulate sys (e_ps (w_env w)) a = (p1, Ok st) /\
  rg_get sys (e_rg (w_env w)) st = (g1, Ok ref) /\ cm_check sys st = Ok d /\ rw_reward sys (e_rw (w_env w)) st ref (ps_k sys p1) a d = (r1, Ok (so_reward x)) /\
  rg_obs sys g1 st = (g2, Ok ob) /\ select (e_filter (w_env w)) st = Ok (so_state x) /\ so_ref x = ob /\ so_terminated x = rle 1 d /\ so_truncated x = e_truncated (w_env w) /\
  w_env w1 = {| e_ps := p1; e_rg := g2; e_rw := r1; e_terminated := rle 1 d; e_truncated := e_truncated (w_env w); e_filter := e_filter (w_env w) |}.
Proof.
  intros E. destruct w as [e tr]. cbn [w_env]. unfold env_step, mbind at 1, get_env at 1 in E. cbn [w_env w_trace] in E.
  unfold mbind at 1, Env_Model.lift at 1 in E. destruct (e_terminated e) eqn:Et; cbn [negb py_assert] in E; [discriminate E|].
  unfold mbind at 1 in E. match type of E with context [call_callbacks sys ?ev ?w] => destruct (callbacks_silent ev w) as (t1 & C1); rewrite C1 in E end. cbn [w_env] in E.
  unfold mbind at 1, call_ps in E. cbn [w_env w_trace] in E. destruct (ps_simulate sys (e_ps e) a) as [p1 [st|er]] eqn:Ep; cbn beta iota in E; [|discriminate E].
  unfold mbind at 1, call_rg at 1 in E. cbn [w_env w_trace with_ps e_rg] in E. destruct (rg_get sys (e_rg e) st) as [g1 [ref|er]] eqn:Eg; cbn beta iota in E; [|discriminate E].
  unfold mbind at 1, Env_Model.lift at 1 in E. destruct (cm_check sys st) as [d|er] eqn:Ed; [|discriminate E].
  unfold mbind at 1, get_env at 1 in E. cbn [w_env] in E. unfold mbind at 1, call_rw in E. cbn [w_env w_trace with_ps with_rg e_ps e_rw] in E.
  destruct (rw_reward sys (e_rw e) st ref (ps_k sys p1) a d) as [r1 [rw|er]] eqn:Er; cbn beta iota in E; [|discriminate E].
  unfold mbind at 1, put_env in E. cbn [w_env w_trace] in E. unfold mbind at 1, call_rg in E. cbn [w_env w_trace with_terminated with_ps with_rg with_rw e_rg] in E.
  destruct (rg_obs sys g1 st) as [g2 [ob|er]] eqn:Eo; cbn beta iota in E; [|discriminate E].
  unfold mbind at 1, get_env at 1 in E. cbn [w_env] in E. unfold mbind at 1 in E. match type of E with context [call_callbacks sys ?ev ?w] => destruct (callbacks_silent ev w) as (t2 & C2); rewrite C2 in E end. cbn [w_env] in E.
  unfold filtered in E. unfold mbind, get_env, Env_Model.lift, ret in E. cbn [w_env e_filter e_terminated e_truncated with_ps with_rg with_rw with_terminated] in E.
  destruct (select (e_filter e) st) as [so|er] eqn:Ef; [|discriminate E]. injection E as <- <-.
  exists p1, st, g1, ref, d, r1, g2, ob. cbn [w_env so_reward so_state so_ref so_terminated so_truncated]. repeat (split; [first [reflexivity|assumption]|]). reflexivity.
Qed.
Lemma step_refused a w : e_terminated (w_env w) = true -> env_step sys a w = (w, Err AssertionError).
Proof. intros H. unfold env_step, mbind, get_env, Env_Model.lift. rewrite H. reflexivity. Qed.

(** The flag of a protocol and the one of the environment go together. *)
Lemma protocol_next nf fo o l w : protocol nf fo (e_terminated (w_env w)) (snd (Env_Model.run sys (o :: l) w)) ->
  protocol nf fo (e_terminated (w_env (fst (run_op sys o w)))) (snd (Env_Model.run sys l (fst (run_op sys o w)))).
Proof.
  cbn [Env_Model.run]. destruct (run_op sys o w) as [w1 out] eqn:Eo. destruct (Env_Model.run sys l w1) as [w2 outs] eqn:El. cbn [fst snd]. intros H. rewrite El. cbn [snd].
  inversion H as [|b z st ob l' H1 H2 H3|a so l' H1 H2 H3 H4|a l' H1|b l' H1]; subst.
  - cbn [run_op] in Eo. destruct (env_reset sys z w) as [w3 [x|er]] eqn:Er; [|discriminate Eo]. injection Eo as <- _.
    apply reset_parts in Er. destruct Er as (? & ? & ? & ? & ? & ? & ? & ? & _ & _ & _ & _ & _ & _ & Ew). rewrite Ew. exact H3.
  - cbn [run_op] in Eo. destruct (env_step sys a w) as [w3 [x|er]] eqn:Er; [|discriminate Eo]. injection Eo as <- <-.
    apply step_parts in Er. destruct Er as (? & ? & ? & ? & d & ? & ? & ? & _ & _ & _ & _ & _ & _ & _ & _ & Es & _ & Ew). rewrite Ew. cbn [e_terminated]. rewrite <- Es. exact H4.
  - cbn [run_op] in Eo. match goal with T : true = e_terminated (w_env w) |- _ => rewrite (step_refused a w (eq_sym T)) in Eo; injection Eo as <-; rewrite <- T end. exact H1.
  - cbn [run_op] in Eo. unfold env_close in Eo. destruct (callbacks_silent OnClose w) as (t & C). rewrite C in Eo. injection Eo as <-. exact H1.
Qed.
Lemma protocol_skip nf fo h : forall l w, protocol nf fo (e_terminated (w_env w)) (snd (Env_Model.run sys (h ++ l) w)) ->
  protocol nf fo (e_terminated (w_env (fst (Env_Model.run sys h w)))) (snd (Env_Model.run sys l (fst (Env_Model.run sys h w)))).
Proof.
  induction h as [|o h IH]; intros l w H; [exact H|]. cbn [app] in H. apply protocol_next in H. apply IH in H. cbn [Env_Model.run].
  destruct (run_op sys o w) as [w1 out]. cbn [fst] in H. destruct (Env_Model.run sys h w1) as [w2 outs]. exact H.
Qed.
End Calls.

(** ** The whole environment *)
Section Whole.
Context {N : numpy} {S : Type} (d : data) (k : S -> nat) (seed : option Z -> S -> S) (seeds : option Z -> list nat -> np_seq N * np_gen N) (cbs : nat) (a : assembly N S) (valid : action -> Prop).
Context (Inv : S -> Prop) (Pre Rel : S -> S -> Prop) (HM : machine_forgets (as_machine a) valid Inv Pre Rel).
Context (Hsi : forall z s, Inv s -> Inv (seed z s)) (Hsp : forall z s s', Pre s s' -> Pre (seed z s) (seed z s')) (Hk : forall s s', Rel s s' -> k s = k s').
Definition the_sys := modules k seed seeds cbs a.
Definition EInv (w : world action (list R) S (gen N) wse) : Prop :=
  let e := w_env w in Inv (e_ps e) /\ glike (as_gen a) (e_rg e) /\ e_rw e = as_reward a /\ e_filter e = as_filter a /\ e_truncated e = false.
Definition ERel (w w' : world action (list R) S (gen N) wse) : Prop :=
  Rel (e_ps (w_env w)) (e_ps (w_env w')) /\ e_rg (w_env w) = e_rg (w_env w') /\ e_rw (w_env w) = e_rw (w_env w') /\ e_filter (w_env w) = e_filter (w_env w') /\
  e_truncated (w_env w) = e_truncated (w_env w') /\ e_terminated (w_env w) = e_terminated (w_env w').
Lemma no_raise : forall tr i ev, cb_raises the_sys tr i ev = None.
Proof. reflexivity. Qed.
Lemma on_gen_ok {A} (f : gen N -> res (gen N * A)) g g1 x : on_gen f g = (g1, Ok x) -> f g = Ok (g1, x).
Proof. unfold on_gen. destruct (f g) as [[g2 y]|e]; intros E; [|discriminate E]. injection E as <- <-. reflexivity. Qed.

Lemma op_keeps nf fo o l w : allowed valid o -> EInv w -> protocol nf fo (e_terminated (w_env w)) (snd (Env_Model.run the_sys (o :: l) w)) -> EInv (fst (run_op the_sys o w)).
Proof.
  intros Ha (I1 & I2 & I3 & I4 & I5) H. destruct o as [z|x|g|r|]; try contradiction; cbn [run_op].
  - destruct (env_reset the_sys z w) as [w1 [y|er]] eqn:Er; [cbn [fst]|].
    + apply (reset_parts the_sys no_raise) in Er. destruct Er as (p & g & r & p1 & st & g1 & rr & r1 & E1 & E2 & E3 & E4 & _ & _ & Ew). unfold EInv. rewrite Ew. cbn [e_ps e_rg e_rw e_filter e_truncated].
      cbn [the_sys modules seed_all ps_reset rg_reset rw_reset] in *. injection E1 as <- <- <-. injection E4 as <-. apply on_gen_ok in E3.
      split; [eapply (mf_reset_inv _ _ _ _ _ HM); [apply Hsi; exact I1|exact E2]|]. split; [eapply reset_like; [apply seed_like; exact I2|exact E3]|]. auto.
    + exfalso. cbn [Env_Model.run run_op] in H. rewrite Er in H. destruct (Env_Model.run the_sys l w1). cbn [snd] in H. inversion H.
  - destruct (env_step the_sys x w) as [w1 [y|er]] eqn:Er; [cbn [fst]|].
    + apply (step_parts the_sys no_raise) in Er. destruct Er as (p1 & st & g1 & ref & dg & r1 & g2 & ob & _ & E2 & E3 & _ & E4 & E5 & _ & _ & _ & _ & Ew). unfold EInv. rewrite Ew. cbn [e_ps e_rg e_rw e_filter e_truncated].
      cbn [the_sys modules ps_simulate rg_get rg_obs rw_reward] in *. injection E4 as <- _. apply on_gen_ok in E3, E5.
      split; [eapply (mf_sim_inv _ _ _ _ _ HM); [exact I1|exact E2]|]. split; [eapply obs_like; [eapply get_like; [exact I2|exact E3]|exact E5]|]. auto.
    + cbn [fst]. destruct (e_terminated (w_env w)) eqn:Et.
      * rewrite (step_refused the_sys x w Et) in Er. injection Er as <- <-. unfold EInv. auto.
      * exfalso. cbn [Env_Model.run run_op] in H. rewrite Er in H. destruct (Env_Model.run the_sys l w1). cbn [snd] in H. inversion H.
  - unfold env_close. destruct (callbacks_silent the_sys no_raise OnClose w) as (t & ->). cbn [fst]. unfold EInv. cbn [w_env]. auto.
Qed.
Lemma ops_keep nf fo h : Forall (allowed valid) h -> forall l w, EInv w -> protocol nf fo (e_terminated (w_env w)) (snd (Env_Model.run the_sys (h ++ l) w)) -> EInv (fst (Env_Model.run the_sys h w)).
Proof.
  induction 1 as [|o h Ho Hh IH]; intros l w Hw H; [exact Hw|]. cbn [app] in H. pose proof (op_keeps nf fo o (h ++ l) w Ho Hw H) as K. apply (protocol_next the_sys no_raise) in H.
  specialize (IH l _ K H). cbn [Env_Model.run]. destruct (run_op the_sys o w) as [w1 out]. cbn [fst] in IH. destruct (Env_Model.run the_sys h w1). exact IH.
Qed.
Lemma op_same nf fo o l w w' : allowed valid o -> ERel w w' -> protocol nf fo (e_terminated (w_env w)) (snd (Env_Model.run the_sys (o :: l) w)) ->
  protocol nf fo (e_terminated (w_env w')) (snd (Env_Model.run the_sys (o :: l) w')) -> snd (run_op the_sys o w) = snd (run_op the_sys o w') /\ ERel (fst (run_op the_sys o w)) (fst (run_op the_sys o w')).
Proof.
  intros Ha (I1 & I2 & I3 & I4 & I5 & I6) H H'. destruct o as [z|x|g|r|]; try contradiction; cbn [run_op].
  - destruct (env_reset the_sys z w) as [w1 [y|er]] eqn:Er; [|exfalso; cbn [Env_Model.run run_op] in H; rewrite Er in H; destruct (Env_Model.run the_sys l w1); cbn [snd] in H; inversion H].
    destruct (env_reset the_sys z w') as [w1' [y'|er]] eqn:Er'; [|exfalso; cbn [Env_Model.run run_op] in H'; rewrite Er' in H'; destruct (Env_Model.run the_sys l w1'); cbn [snd] in H'; inversion H'].
    cbn [fst snd]. apply (reset_parts the_sys no_raise) in Er, Er'. destruct Er as (p & g & r & p1 & st & g1 & rr & r1 & E1 & E2 & E3 & E4 & E5 & E6 & Ew), Er' as (p' & g' & r' & p1' & st' & g1' & rr' & r1' & F1 & F2 & F3 & F4 & F5 & F6 & Fw).
    cbn [the_sys modules seed_all ps_reset rg_reset rw_reset] in *. injection E1 as <- <- <-. injection F1 as <- <- <-. injection E4 as <-. injection F4 as <-. apply on_gen_ok in E3, F3.
    destruct (mf_reset _ _ _ _ _ HM _ _ _ _ _ _ (Hsp z _ _ (mf_pre _ _ _ _ _ HM _ _ I1)) E2 F2) as [<- R1]. rewrite <- I2, E3 in F3. injection F3 as <- <-.
    rewrite <- I4, E5 in F5. injection F5 as F5. split; [destruct y, y'; cbn [fst snd] in *; congruence|]. unfold ERel. rewrite Ew, Fw. cbn [e_ps e_rg e_rw e_filter e_truncated e_terminated]. auto 10.
  - destruct (e_terminated (w_env w)) eqn:Et.
    { rewrite (step_refused the_sys x w Et), (step_refused the_sys x w' (eq_sym I6)). cbn [fst snd]. split; [reflexivity|]. unfold ERel. rewrite Et. auto 10. }
    rewrite <- I6 in H'.
    destruct (env_step the_sys x w) as [w1 [y|er]] eqn:Er; [|exfalso; cbn [Env_Model.run run_op] in H; rewrite Er in H; destruct (Env_Model.run the_sys l w1); cbn [snd] in H; inversion H].
    destruct (env_step the_sys x w') as [w1' [y'|er]] eqn:Er'; [|exfalso; cbn [Env_Model.run run_op] in H'; rewrite Er' in H'; destruct (Env_Model.run the_sys l w1'); cbn [snd] in H'; inversion H'].
    cbn [fst snd]. apply (step_parts the_sys no_raise) in Er, Er'. destruct Er as (p1 & st & g1 & ref & dg & r1 & g2 & ob & _ & E2 & E3 & E4 & E5 & E6 & E7 & E8 & E9 & E10 & Ew),
      Er' as (p1' & st' & g1' & ref' & dg' & r1' & g2' & ob' & _ & F2 & F3 & F4 & F5 & F6 & F7 & F8 & F9 & F10 & Fw).
    cbn [the_sys modules ps_simulate rg_get rg_obs rw_reward cm_check ps_k] in *. apply on_gen_ok in E3, F3, E6, F6.
    destruct (mf_sim _ _ _ _ _ HM x _ _ _ _ _ _ Ha I1 E2 F2) as [<- R1]. rewrite <- I2, E3 in F3. injection F3 as <- <-. rewrite E4 in F4. injection F4 as <-. rewrite E6 in F6. injection F6 as <- <-.
    injection E5 as <- E5. injection F5 as <- F5. rewrite <- I3, E5 in F5. injection F5 as F5. rewrite <- I4, E7 in F7. injection F7 as F7.
    split; [destruct y as [y1 y2 y3 y4 y5], y' as [z1 z2 z3 z4 z5]; cbn [so_state so_ref so_reward so_terminated so_truncated] in *; congruence|]. unfold ERel. rewrite Ew, Fw. cbn [e_ps e_rg e_rw e_filter e_truncated e_terminated]. auto 10.
  - unfold env_close. destruct (callbacks_silent the_sys no_raise OnClose w) as (t & ->). destruct (callbacks_silent the_sys no_raise OnClose w') as (t' & ->). cbn [fst snd]. split; [reflexivity|]. unfold ERel. cbn [w_env]. auto 10.
Qed.
Lemma ops_same nf fo l : Forall (allowed valid) l -> forall w w', ERel w w' -> protocol nf fo (e_terminated (w_env w)) (snd (Env_Model.run the_sys l w)) ->
  protocol nf fo (e_terminated (w_env w')) (snd (Env_Model.run the_sys l w')) -> snd (Env_Model.run the_sys l w) = snd (Env_Model.run the_sys l w').
Proof.
  induction 1 as [|o l Ho Hl IH]; intros w w' Hr H H'; [reflexivity|]. destruct (op_same nf fo o l w w' Ho Hr H H') as [E R1].
  apply (protocol_next the_sys no_raise) in H, H'. specialize (IH _ _ R1 H H'). cbn [Env_Model.run].
  destruct (run_op the_sys o w) as [w1 out], (run_op the_sys o w') as [w1' out']. cbn [fst snd] in *. subst out'.
  destruct (Env_Model.run the_sys l w1), (Env_Model.run the_sys l w1'). cbn [snd] in *. congruence.
Qed.
Lemma restart_same nf fo z l w w' : (forall s s', Inv s -> Inv s' -> Pre (seed z s) (seed z s')) -> Forall (allowed valid) l -> EInv w -> EInv w' ->
  protocol nf fo (e_terminated (w_env w)) (snd (Env_Model.run the_sys (Reset z :: l) w)) -> protocol nf fo (e_terminated (w_env w')) (snd (Env_Model.run the_sys (Reset z :: l) w')) ->
  snd (Env_Model.run the_sys (Reset z :: l) w) = snd (Env_Model.run the_sys (Reset z :: l) w').
Proof.
  intros Hz Hl (I1 & I2 & I3 & I4 & I5) (J1 & J2 & J3 & J4 & J5) H H'.
  assert (K : snd (run_op the_sys (Reset z) w) = snd (run_op the_sys (Reset z) w') /\ ERel (fst (run_op the_sys (Reset z) w)) (fst (run_op the_sys (Reset z) w'))).
  { cbn [run_op].
    destruct (env_reset the_sys z w) as [w1 [y|er]] eqn:Er; [|exfalso; cbn [Env_Model.run run_op] in H; rewrite Er in H; destruct (Env_Model.run the_sys l w1); cbn [snd] in H; inversion H].
    destruct (env_reset the_sys z w') as [w1' [y'|er]] eqn:Er'; [|exfalso; cbn [Env_Model.run run_op] in H'; rewrite Er' in H'; destruct (Env_Model.run the_sys l w1'); cbn [snd] in H'; inversion H'].
    cbn [fst snd]. apply (reset_parts the_sys no_raise) in Er, Er'. destruct Er as (p & g & r & p1 & st & g1 & rr & r1 & E1 & E2 & E3 & E4 & E5 & E6 & Ew), Er' as (p' & g' & r' & p1' & st' & g1' & rr' & r1' & F1 & F2 & F3 & F4 & F5 & F6 & Fw).
    cbn [the_sys modules seed_all ps_reset rg_reset rw_reset] in *. injection E1 as <- <- <-. injection F1 as <- <- <-. injection E4 as <-. injection F4 as <-. apply on_gen_ok in E3, F3.
    destruct (mf_reset _ _ _ _ _ HM _ _ _ _ _ _ (Hz _ _ I1 J1) E2 F2) as [<- R1]. rewrite (gen_restart _ _ _ _ J2 I2), E3 in F3. injection F3 as <- <-.
    rewrite I4 in E5. rewrite J4, E5 in F5. injection F5 as F5. split; [destruct y, y'; cbn [fst snd] in *; congruence|]. unfold ERel. rewrite Ew, Fw. cbn [e_ps e_rg e_rw e_filter e_truncated e_terminated].
    rewrite I3, I4, I5, J3, J4, J5. auto 10. }
  destruct K as [E R1]. apply (protocol_next the_sys no_raise) in H, H'. pose proof (ops_same nf fo l Hl _ _ R1 H H') as IH. cbn [Env_Model.run].
  destruct (run_op the_sys (Reset z) w) as [w1 out], (run_op the_sys (Reset z) w') as [w1' out']. cbn [fst snd] in *. subst out'.
  destruct (Env_Model.run the_sys l w1), (Env_Model.run the_sys l w1'). cbn [snd] in *. congruence.
Qed.
End Whole.
