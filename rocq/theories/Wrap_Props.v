(** Theorems about the dead time wrapper (dead_time_processor.py). *)
From Verif Require Import PyBaseFacts PyDictFacts Conv_Model Transform_Model PhysSys_Model Wrap_Model Wrap_Spec Wrap_Proofs.
Local Open Scope string_scope. Local Open Scope list_scope. Local Open Scope R_scope.

(** ** A system for the examples: it shows the action it was given *)
Definition plain_motor : minfo := {| mi_three := true; mi_induction := true; mi_par := [("p", 2); ("l_m", 1); ("l_sigr", 1); ("r_r", 1)] |}.
Definition echo (sp : aspace) : machine nat :=
  {| m_info := {| i_names := ["omega"; "i"]; i_pos := positions ["omega"; "i"]; i_limits := [2; 1]; i_nominal := [1; 1]; i_low := [-1; -1]; i_high := [1; 1];
                  i_tau := 1 / 10; i_act := sp; i_dead := None; i_motor := plain_motor |};
     m_reset := fun s => (O, Ok [0]);
     m_sim := fun a s => (S s, match a with ADisc n => Ok [IZR n] | AMulti l => Ok (map IZR l) | ABox l => Ok l | ANest _ => Err AssertionError end) |}.

(** ** C56 A pure delay *)
(** With [d] steps of dead time an episode of the wrapped system is the episode of the inner
    system whose n-th action is the default action (0, or a vector of zeros) for n < d and the (n-d)-th submitted
    action afterwards; exceptions included. *)
Theorem dead_time_is_pure_delay :
  forall S d (m : machine S) M a0 x acts, dead_default d m = Ok M -> default_action (i_act (m_info m)) = Ok a0 ->
  (forall n, i_act (m_info m) = SDisc n -> a0 = ADisc 0) /\ (forall n, i_act (m_info m) = SBox n -> exists v, a0 = ABox v /\ length v = n /\ forall k y, nth_error v k = Some y -> y = 0) /\
  exists us, length us = length acts /\
    (forall n, (n < length acts)%nat -> nth_error us n = if (Z.of_nat n <? d)%Z then Some a0 else nth_error acts (n - Z.to_nat d)) /\
    snd (episode M acts x) = snd (episode m us (dd_in x)) /\ dd_in (fst (episode M acts x)) = fst (episode m us (dd_in x)).
Proof.
  intros S d m M a0 x acts H Ha. split; [intros n E; rewrite E in Ha; injection Ha as <-; reflexivity|].
  split; [intros n E; rewrite E in Ha; injection Ha as <-; eexists; split; [reflexivity|]; split; [apply repeat_length|]; intros k y Hy; apply nth_error_In in Hy; exact (repeat_spec _ _ _ Hy)|].
  exists (after (repeat a0 (Z.to_nat d)) acts). destruct (dead_default_episode d m M a0 acts x H Ha) as [E1 E2]. split; [apply after_length|]. split; [|auto].
  intros n Hn. rewrite after_nth by exact Hn. destruct (Z.ltb_spec (Z.of_nat n) d) as [H1|H1], (Nat.ltb_spec n (Z.to_nat d)) as [H2|H2]; try reflexivity; lia.
Qed.
Print Assumptions dead_time_is_pure_delay.
Example dead_time_is_pure_delay_example : exists M, dead_default 2 (echo (SDisc 8)) = Ok M /\
  snd (episode M [ADisc 5; ADisc 6; ADisc 7] {| dd_deque := []; dd_src := tt; dd_in := O |}) = ([[0]; [0]; [0]; [5]], None).
Proof. eexists. split; [reflexivity|]. reflexivity. Qed.

(** Any number of episodes: nothing of an episode reaches the next one. *)
Theorem dead_time_episodes :
  forall S d (m : machine S) M a0 l x, dead_default d m = Ok M -> default_action (i_act (m_info m)) = Ok a0 ->
  snd (episodes M l x) = snd (episodes m (map (after (repeat a0 (Z.to_nat d))) l) (dd_in x)).
Proof.
  intros S d m M a0 l x H Ha. revert x. induction l as [|acts l IH]; intros x; [reflexivity|]. cbn [episodes map]. destruct (dead_default_episode d m M a0 acts x H Ha) as [E1 E2].
  destruct (episode M acts x) as [x1 o1]. destruct (episode m (after (repeat a0 (Z.to_nat d)) acts) (dd_in x)) as [s1 o1']. cbn [fst snd] in E1, E2. subst s1 o1'. specialize (IH x1).
  destruct (episodes M l x1) as [x2 os]. destruct (episodes m _ (dd_in x1)) as [s2 os']. cbn [snd] in *. congruence.
Qed.
Print Assumptions dead_time_episodes.
Example dead_time_episodes_example : exists M, dead_default 1 (echo (SDisc 8)) = Ok M /\
  snd (episodes M [[ADisc 5; ADisc 6]; [ADisc 7; ADisc 4; ADisc 3]] {| dd_deque := []; dd_src := tt; dd_in := O |}) = [([[0]; [0]; [5]], None); ([[0]; [0]; [7]; [4]], None)].
Proof. eexists. split; [reflexivity|]. reflexivity. Qed.

(** Stacked dead times add up. *)
Theorem dead_times_add :
  forall S d1 d2 (m : machine S) M1 M12 M a0 l x1 x12, dead_default d2 m = Ok M1 -> dead_default d1 M1 = Ok M12 -> dead_default (d1 + d2) m = Ok M ->
  default_action (i_act (m_info m)) = Ok a0 -> dd_in (dd_in x12) = dd_in x1 ->
  snd (episodes M12 l x12) = snd (episodes M l x1).
Proof.
  intros S d1 d2 m M1 M12 M a0 l x1 x12 H1 H12 H Ha Hx. rewrite (dead_time_episodes _ _ _ _ _ l x1 H Ha).
  destruct (dead_default_inv _ _ _ H1) as (P1 & a1 & Ha1 & E1). assert (Ha' : default_action (i_act (m_info M1)) = Ok a0) by (subst M1; exact Ha).
  destruct (dead_default_inv _ _ _ H12) as (P12 & _).
  rewrite (dead_time_episodes _ _ _ _ _ l x12 H12 Ha'), (dead_time_episodes _ _ _ _ _ _ (dd_in x12) H1 Ha), Hx, map_map. do 2 f_equal.
  apply map_ext. intros acts. rewrite after_after, <- repeat_app. do 3 f_equal. lia.
Qed.
Print Assumptions dead_times_add.
Example dead_times_add_example : exists M1 M12 M, dead_default 2 (echo (SDisc 8)) = Ok M1 /\ dead_default 1 M1 = Ok M12 /\ dead_default (1 + 2) (echo (SDisc 8)) = Ok M /\ default_action (SDisc 8) = Ok (ADisc 0).
Proof. do 3 eexists. split; [reflexivity|]. split; [reflexivity|]. split; reflexivity. Qed.

(** Wrong use: non-positive steps, an unknown action space, simulating before the reset. *)
Theorem dead_time_refuses :
  forall S (m : machine S), (forall d, (d <= 0)%Z -> dead_default d m = Err AssertionError) /\
  (forall d, i_act (m_info m) = SOther -> dead_default d m = Err AssertionError) /\
  (forall d M a x, dead_default d m = Ok M -> dd_deque x = [] -> m_sim M a x = (x, Err IndexError)).
Proof.
  intros S m. split; [|split].
  - intros d Hd. unfold dead_default, py_assert. destruct (Z.ltb_spec 0 d); [lia|reflexivity].
  - intros d E. unfold dead_default, py_assert. destruct (0 <? d)%Z; [|reflexivity]. cbn [bind]. rewrite E. reflexivity.
  - intros d M a x H Hx. destruct (dead_default_inv _ _ _ H) as (_ & a0 & _ & ->). cbn [dead_machine m_sim]. unfold dead_sim. rewrite Hx. reflexivity.
Qed.
Print Assumptions dead_time_refuses.
Example dead_time_refuses_example : exists M, dead_default 2 (echo (SDisc 8)) = Ok M /\ m_sim M (ADisc 1) {| dd_deque := []; dd_src := tt; dd_in := O |} = ({| dd_deque := []; dd_src := tt; dd_in := O |}, Err IndexError).
Proof. eexists. split; reflexivity. Qed.

(** With a MultiDiscrete space the default action is a list around an array; a system that
    checks its actions refuses it, so every first step fails. *)
Theorem multi_discrete_default_raises :
  forall S d nvec (m : machine S) M x a acts, i_act (m_info m) = SMulti nvec -> (forall l s, snd (m_sim m (ANest l) s) = Err AssertionError) ->
  dead_default d m = Ok M -> (forall s, exists s' o, m_reset m s = (s', Ok o)) ->
  exists o, snd (episode M (a :: acts) x) = ([o], Some AssertionError).
Proof.
  intros S d nvec m M x a acts Hs Hm H Hr. assert (Ha : default_action (i_act (m_info m)) = Ok (ANest (map (fun _ => 0%Z) nvec))) by (rewrite Hs; reflexivity).
  destruct (dead_default_episode d m M _ (a :: acts) x H Ha) as [_ ->]. destruct (dead_default_inv _ _ _ H) as (Hd & _).
  destruct (Z.to_nat d) as [|n] eqn:En; [lia|]. unfold after. cbn [length repeat app firstn]. unfold episode. destruct (Hr (dd_in x)) as (s' & o & ->). cbn [sims]. specialize (Hm (map (fun _ => 0%Z) nvec) s').
  destruct (m_sim m _ s') as [s2 r]. cbn [snd] in Hm. subst r. exists o. reflexivity.
Qed.
Print Assumptions multi_discrete_default_raises.
Example multi_discrete_default_raises_example : exists M, dead_default 1 (echo (SMulti [4; 4]%Z)) = Ok M /\
  snd (episode M [AMulti [1; 2]%Z] {| dd_deque := []; dd_src := tt; dd_in := O |}) = ([[0]], Some AssertionError).
Proof. eexists. split; reflexivity. Qed.

(** ** C57 Custom reset actions *)
(** The given list is applied from its end; only its last [d] entries are used, and a
    shorter list shortens the delay to its length. *)
Theorem reset_actions_reversed :
  forall S Q d src (m : machine S) M (x : dead S Q) q l acts, dead_new d src m = Ok M -> src (dd_src x) = (q, Ok l) -> l <> [] ->
  snd (episode M acts x) = snd (episode m (after (rev (lastn (Z.to_nat d) l)) acts) (dd_in x)) /\
  length (rev (lastn (Z.to_nat d) l)) = Nat.min (Z.to_nat d) (length l).
Proof.
  intros S Q d src m M x q l acts H Hs Hl. unfold dead_new, py_assert in H. destruct (Z.ltb_spec 0 d) as [Hd|]; [|discriminate]. apply Ok_inj in H. subst M. split.
  - exact (proj2 (episode_dead (Z.to_nat d) src m acts x q l ltac:(lia) Hs Hl)).
  - rewrite rev_length. apply lastn_length.
Qed.
Print Assumptions reset_actions_reversed.
Example reset_actions_reversed_example : exists M, dead_new 2 (fun q : unit => (q, Ok [ADisc 1; ADisc 2; ADisc 3])) (echo (SDisc 8)) = Ok M /\
  snd (episode M [ADisc 5; ADisc 6; ADisc 7] {| dd_deque := []; dd_src := tt; dd_in := O |}) = ([[0]; [3]; [2]; [5]], None).
Proof. eexists. split; reflexivity. Qed.

(** So the first [d] applied actions are not the given ones in their order ... *)
Theorem reset_actions_in_order_refuted :
  exists S d src (m : machine S) M (x : dead S unit) l acts, dead_new (Z.of_nat d) src m = Ok M /\ src (dd_src x) = (dd_src x, Ok l) /\ length l = d /\
  snd (episode M acts x) <> snd (episode m (after l acts) (dd_in x)).
Proof.
  exists nat, 2%nat, (fun q : unit => (q, Ok [ADisc 1; ADisc 2])), (echo (SDisc 8)). eexists. exists {| dd_deque := []; dd_src := tt; dd_in := O |}, [ADisc 1; ADisc 2], [ADisc 5].
  split; [reflexivity|]. split; [reflexivity|]. split; [reflexivity|]. cbn. intros E. injection E as E. lra.
Qed.
Print Assumptions reset_actions_in_order_refuted.

(** ... and an empty list makes the first step raise. *)
Theorem empty_reset_actions_raise :
  forall S Q d src (m : machine S) M (x : dead S Q) q a acts s' o, dead_new d src m = Ok M -> src (dd_src x) = (q, Ok []) -> m_reset m (dd_in x) = (s', Ok o) ->
  snd (episode M (a :: acts) x) = ([o], Some IndexError).
Proof.
  intros S Q d src m M x q a acts s' o H Hs Hr. unfold dead_new, py_assert in H. destruct (0 <? d)%Z; [|discriminate]. apply Ok_inj in H. subst M.
  unfold episode. cbn [dead_machine m_reset]. unfold dead_reset. rewrite Hr, Hs. unfold extend, lastn. cbn [length app Nat.sub skipn sims dead_machine m_sim]. unfold dead_sim. reflexivity.
Qed.
Print Assumptions empty_reset_actions_raise.
Example empty_reset_actions_raise_example : exists M, dead_new 2 (fun q : unit => (q, Ok [])) (echo (SDisc 8)) = Ok M /\ m_reset (echo (SDisc 8)) O = (O, Ok [0]).
Proof. eexists. split; reflexivity. Qed.
