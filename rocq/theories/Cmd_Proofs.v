(** What the converters of the registered environments output. *)
From Verif Require Import PyBaseFacts Conv_Model Conv_Spec Conv_Proofs Conv_Proofs2 Supply_Model Solver_Model Motor_Model Transform_Model PhysSys_Model PhysSys_Proofs2 PhysSys_Proofs3 Scipy_Model Wrap_Model Ctl_Proofs
  Wrap_Proofs3 Preset_Model Full_Model Full_Spec Full_Proofs Repro_Spec Repro_Proofs Repro_Proofs2 Cmd_Spec.
Local Open Scope list_scope. Local Open Scope R_scope.

(** ** Converters *)
(** After [set_action] there is one interval and every conversion gives the commanded voltages. *)
Definition obeys {C A} (cv : conv_if C A) (valid : A -> Prop) (Inv : C -> Prop) (cmd : A -> list R) : Prop :=
  forall c a t c1 ts, Inv c -> valid a -> cv_set_action cv c a t = (c1, Ok ts) ->
  removelast ts = [] /\ forall i now c2 u, cv_convert cv c1 i now = (c2, Ok u) -> u = cmd a.
Lemma adapt_obeys {C A} (read : action -> option A) (cv : conv_if C A) (valid : A -> Prop) Inv (cmd : A -> list R) (cmd' : action -> list R) :
  (forall a x, read a = Some x -> cmd' a = cmd x) -> obeys cv valid Inv cmd ->
  obeys (adapt read cv) (fun a => exists x, read a = Some x /\ valid x) Inv cmd'.
Proof.
  intros Hc H c a t c1 ts Hi (x & Hx & Hv) E. cbn [adapt cv_set_action] in E. rewrite Hx in E. destruct (H c x t c1 ts Hi Hv E) as [H1 H2]. split; [exact H1|].
  intros i now c2 u Eu. rewrite (Hc a x Hx). exact (H2 i now c2 u Eu).
Qed.

Lemma obey_half x : Rmin (Rmax (/2 * (x + 1)) 0) 1 = (clipped x (-1) 1 + 1) / 2.
Proof. rewrite clipped_eq by lra. unfold clipped. destruct (rltP (/2 * (x + 1)) 0), (rltP 1 (/2 * (x + 1))), (rltP x (-1)), (rltP 1 x); lra. Qed.
Lemma obey_half_n x : Rmin (Rmax (- /2 * (x - 1)) 0) 1 = (1 - clipped x (-1) 1) / 2.
Proof. rewrite clipped_eq by lra. unfold clipped. destruct (rltP (- /2 * (x - 1)) 0), (rltP 1 (- /2 * (x - 1))), (rltP x (-1)), (rltP 1 x); lra. Qed.
Lemma obey_leg q x j : cq_il q = 0 -> c2_convert {| cq_tau := cq_tau q; cq_il := cq_il q; cq_act := Rmin (Rmax x 0) 1 |} j = Rmin (Rmax x 0) 1.
Proof. intros Hq. rewrite c2_no_interlock; [reflexivity|exact Hq|apply clip01]. Qed.
(** The continuous converter of an entry with its sampling time. *)
Lemma con_commands e tau c0 c a t c1 ts : con_of e = Some c0 -> conInv (con_set_tau tau c0) c -> length a = channels e -> con_set_action c a t = (c1, Ok ts) ->
  con_time (1 / 10000) c /\ removelast ts = [] /\ con_dim c = channels e /\ forall i now u, con_convert c1 i now = Ok u -> u = commanded_cont e a.
Proof.
  intros H0 Hc Hl E. unfold conInv in Hc. destruct e; try discriminate H0; injection H0 as <-; destruct c as [q|q|q|q]; try discriminate Hc.
  - destruct q as [T [ta ia aa] [tb ib ab]]. cbn in Hc. injection Hc as -> -> -> -> ->. cbn [con_set_action c4_a c4_b c4_tau] in E. destruct a as [|x [|y l]]; try discriminate Hl. cbn [cq_set_action bind] in E.
    injection E as <- <-. split; [split; reflexivity|]. split; [apply (same_time_sorted (t + 1 / 10000) [t + 1 / 10000; t + 1 / 10000]); repeat constructor|]. split; [reflexivity|]. intros i now u E.
    cbn [con_convert c4_a c4_b] in E. destruct (head_r i) as [i0|]; [|discriminate E]. cbn [bind] in E. injection E as <-.
    rewrite !(obey_leg {| cq_tau := 1 / 10000; cq_il := 0; cq_act := 0 |}) by reflexivity. rewrite obey_half, obey_half_n. cbn. f_equal. lra.
  - destruct q as [T [ta ia aa] [tb ib ab] [tc ic ac]]. cbn in Hc. injection Hc as -> -> -> -> -> -> ->. cbn [con_set_action c6_a c6_b c6_c c6_tau] in E. destruct a as [|x [|y [|z [|w l]]]]; try discriminate Hl.
    cbn [cq_set_action bind] in E.
    injection E as <- <-. split; [split; [|split]; reflexivity|]. split; [apply (same_time_sorted (t + 1 / 10000) [t + 1 / 10000; t + 1 / 10000; t + 1 / 10000]); repeat constructor|]. split; [reflexivity|]. intros i now u E.
    cbn [con_convert c6_a c6_b c6_c] in E. destruct (nth_r 0 i) as [i0|]; [|discriminate E]. destruct (nth_r 1 i) as [i1|]; [|discriminate E]. destruct (nth_r 2 i) as [i2|]; [|discriminate E]. cbn [bind] in E. injection E as <-.
    rewrite !(obey_leg {| cq_tau := 1 / 10000; cq_il := 0; cq_act := 0 |}) by reflexivity. rewrite !obey_half. cbn. f_equal; [|f_equal; [|f_equal]]; lra.
Qed.

Lemma con_obeys e tau c0 : con_of e = Some c0 -> obeys con_if (fun a => length a = channels e) (conInv (con_set_tau tau c0)) (commanded_cont e).
Proof.
  intros H0 c a t c1 ts Hc Hl E. cbn [con_if cv_set_action cv_convert] in *. destruct (con_commands e tau c0 c a t c1 ts H0 Hc Hl E) as (_ & H1 & _ & H2). split; [exact H1|].
  intros i now c2 u Eu. injection Eu as _ Eu. eapply H2; exact Eu.
Qed.
Lemma cm_obeys tau es cs0 : all_some (map con_of es) = Some cs0 ->
  obeys cmulti_if (fun a => length a = list_sum (map channels es)) (cmInv (cm_set_tau tau cs0)) (commanded_parts es).
Proof.
  intros H0.
  assert (K : forall cs a t c1 ts, cmInv (cm_set_tau tau cs0) cs -> length a = list_sum (map channels es) -> cm_set_all cs a t = (c1, Ok ts) ->
    cm_fast (1 / 10000) cs /\ forall i now u, cm_convert c1 i now = Ok u -> u = commanded_parts es a).
  { revert cs0 H0. induction es as [|e es IH]; intros cs0 H0 cs a t c1 ts Hi Hl E.
    - injection H0 as <-. inversion Hi; subst. cbn in E. injection E as <- <-. split; [constructor|]. intros i now u Eu. injection Eu as <-. reflexivity.
    - cbn [map all_some] in H0. destruct (con_of e) as [c0|] eqn:Ec; [|discriminate H0]. destruct (all_some (map con_of es)) as [cs'|] eqn:Es; [|discriminate H0]. injection H0 as <-.
      cbn [cm_set_tau map] in Hi. inversion Hi as [|? c ? cs2 Hc Hcs]; subst. cbn [map list_sum fold_right] in Hl. cbn [cm_set_all] in E.
      assert (D : con_dim c = channels e). { clear - Ec Hc. unfold conInv in Hc. destruct e; try discriminate Ec; injection Ec as <-; destruct c; try discriminate Hc; reflexivity. }
      rewrite D in E. assert (L : length (firstn (channels e) a) = channels e) by (rewrite firstn_length; fold (list_sum (map channels es)) in Hl; lia).
      destruct (con_set_action c (firstn (channels e) a) t) as [c2 [t2|]] eqn:E2; [|discriminate E]. destruct (con_commands e tau c0 c _ t c2 t2 Ec Hc L E2) as (T1 & _ & _ & T2).
      destruct (cm_set_all cs2 (skipn (channels e) a) t) as [c3 [t3|]] eqn:E3; cbn [bind] in E; injection E as <- E; [|discriminate E].
      destruct (IH cs' eq_refl cs2 (skipn (channels e) a) t c3 t3 Hcs) as [F1 F2]; [rewrite skipn_length; fold (list_sum (map channels es)) in Hl; lia|exact E3|]. split; [constructor; assumption|].
      intros i now u Eu. cbn [cm_convert] in Eu. destruct (con_convert c2 _ now) as [u2|] eqn:U2; [|discriminate Eu]. destruct (cm_convert c3 _ now) as [u3|] eqn:U3; [|discriminate Eu]. cbn [bind] in Eu. injection Eu as <-.
      cbn [commanded_parts]. rewrite (T2 _ _ _ U2), (F2 _ _ _ U3). reflexivity. }
  intros c a t c1 ts Hi Hl E. cbn [cmulti_if cv_set_action cv_convert] in *. pose proof E as E'. unfold cm_set_action in E. destruct (cm_set_all c a t) as [c2 [t2|]] eqn:E2; cbn [bind] in E; injection E as -> E; [|discriminate E].
  destruct (K c a t c1 t2 Hi Hl E2) as [F1 F2]. split; [eapply (cm_quick (1 / 10000)); [exact F1|exact E']|]. intros i now c3 u Eu. injection Eu as _ Eu. eapply F2; exact Eu.
Qed.

(** Switched converters *)
Lemma f2_armed T c a t c1 ts : leg_times T 0 c -> f2_set_action c a t = (c1, Ok ts) -> a = 1%Z \/ a = 2%Z ->
  forall i now c2 u, f2_convert c1 i now = (c2, Ok u) -> u = [if (a =? 1)%Z then 1 else 0].
Proof.
  intros [H1 H2] E Ha i now c2 u Eu. unfold f2_set_action in E. destruct (discrete_contains 3 a); [|discriminate E]. unfold f2_pattern in E. cbn [f2_il f2_start f2_tau f2_sw] in E. rewrite H2 in E.
  destruct (reqP 0 0) as [_|N]; [|lra]. rewrite !orb_true_r in E. injection E as <- <-. unfold f2_convert, f2_next_sw in Eu. cbn [f2_pat last] in Eu.
  destruct (rlt _ _) in Eu; unfold f2_out in Eu; destruct Ha as [-> | ->]; cbn in Eu; injection Eu as _ <-; reflexivity.
Qed.
Ltac evz := repeat match goal with |- context [f4_action0 ?n] => let v := eval vm_compute in (f4_action0 n) in change (f4_action0 n) with v
  | |- context [f4_action1 ?n] => let v := eval vm_compute in (f4_action1 n) in change (f4_action1 n) with v
  | |- context [f6_sub ?n ?k] => let v := eval vm_compute in (f6_sub n k) in change (f6_sub n k) with v end.
Lemma fin_commands e T c a t c1 ts : (e = Fin4 \/ e = FinB6) -> finInv T (fin_space e) c -> fin_set_action c a t = (c1, Ok ts) ->
  forall i now c2 u, fin_convert c1 i now = (c2, Ok u) -> u = commanded_fin e a.
Proof.
  intros He [Hn HT] E i now c2 u Eu. destruct He as [-> | ->]; destruct c as [c|c|c|c]; try discriminate Hn; cbn [fin_set_action lift] in E.
  - unfold f4_set_action in E. destruct (discrete_contains 4 a) eqn:Ea; [|discriminate E]. cbn [times_par legs] in HT. pose proof (Forall_inv HT) as Ta. pose proof (Forall_inv (Forall_inv_tail HT)) as Tb.
    assert (Ha : (0 <= a < 4)%Z). { unfold discrete_contains in Ea. apply andb_prop in Ea. destruct Ea as [E1 E2]. apply Z.leb_le in E1. apply Z.ltb_lt in E2. lia. }
    assert (A0 : f4_action0 a = 1%Z \/ f4_action0 a = 2%Z) by (assert (a = 0 \/ a = 1 \/ a = 2 \/ a = 3)%Z as [->|[->|[->| ->]]] by lia; cbn; auto).
    assert (A1 : f4_action1 a = 1%Z \/ f4_action1 a = 2%Z) by (assert (a = 0 \/ a = 1 \/ a = 2 \/ a = 3)%Z as [->|[->|[->| ->]]] by lia; cbn; auto).
    destruct (f2_set_action (f4_a c) (f4_action0 a) t) as [x [tx|]] eqn:Ex; [|discriminate E]. destruct (f2_set_action (f4_b c) (f4_action1 a) t) as [y [ty|]] eqn:Ey; cbn [bind fst snd] in E; [|discriminate E].
    injection E as <- <-. cbn [fin_convert lift] in Eu. unfold f4_convert in Eu. cbn [f4_a f4_b f4_tau] in Eu.
    destruct (f2_convert x i now) as [x1 [ux|]] eqn:Ux; [|discriminate Eu]. rewrite (f2_armed T _ _ t x tx Ta Ex A0 _ _ _ _ Ux) in Eu. destruct i as [|i0 i]; [discriminate Eu|].
    destruct (f2_convert y [- i0] now) as [y1 [uy|]] eqn:Uy; [|discriminate Eu]. rewrite (f2_armed T _ _ t y ty Tb Ey A1 _ _ _ _ Uy) in Eu. cbn [bind head_r fst snd] in Eu. injection Eu as _ <-.
    assert (a = 0 \/ a = 1 \/ a = 2 \/ a = 3)%Z as [->|[->|[->| ->]]] by lia; evz; cbn; f_equal; lra.
  - unfold f6_set_action in E. destruct (discrete_contains 8 a) eqn:Ea; [|discriminate E]. cbn [times_par legs] in HT. pose proof (Forall_inv HT) as Ta. pose proof (Forall_inv (Forall_inv_tail HT)) as Tb.
    pose proof (Forall_inv (Forall_inv_tail (Forall_inv_tail HT))) as Tc.
    assert (Ha : (0 <= a < 8)%Z). { unfold discrete_contains in Ea. apply andb_prop in Ea. destruct Ea as [E1 E2]. apply Z.leb_le in E1. apply Z.ltb_lt in E2. lia. }
    assert (C : (a = 0 \/ a = 1 \/ a = 2 \/ a = 3 \/ a = 4 \/ a = 5 \/ a = 6 \/ a = 7)%Z) by lia.
    assert (A0 : forall k, (k < 3)%nat -> f6_sub a k = 1%Z \/ f6_sub a k = 2%Z).
    { intros k Hk. destruct k as [|[|[|k]]]; [| | |lia]; clear - C; repeat (destruct C as [->|C]; [cbn; auto|]); subst a; cbn; auto. }
    destruct (f2_set_action (f6_a c) (f6_sub a 0) t) as [x [tx|]] eqn:Ex; destruct (f2_set_action (f6_b c) (f6_sub a 1) t) as [y [ty|]] eqn:Ey;
      destruct (f2_set_action (f6_c c) (f6_sub a 2) t) as [z [tz|]] eqn:Ez; cbn [bind fst snd] in E; try discriminate E.
    injection E as <- <-. cbn [fin_convert lift] in Eu. unfold f6_convert in Eu. cbn [f6_a f6_b f6_c f6_tau] in Eu. destruct i as [|i0 [|i1 [|i2 i]]].
    + discriminate Eu.
    + destruct (f2_convert x [i0] now) as [x1 [ux|]]; cbn [half bind] in Eu; [|discriminate Eu]. destruct (head_r ux); discriminate Eu.
    + destruct (f2_convert x [i0] now) as [x1 [ux|]]; cbn [half bind] in Eu; [|discriminate Eu]. destruct (head_r ux); cbn [bind] in Eu; [|discriminate Eu].
      destruct (f2_convert y [i1] now) as [y1 [uy|]]; cbn [half bind] in Eu; [|discriminate Eu]. destruct (head_r uy); discriminate Eu.
    + destruct (f2_convert x [i0] now) as [x1 [ux|]] eqn:Ux; cbn [half bind] in Eu; [|discriminate Eu]. rewrite (f2_armed T _ _ t x tx Ta Ex (A0 0%nat ltac:(lia)) _ _ _ _ Ux) in Eu. cbn [head_r bind] in Eu.
      destruct (f2_convert y [i1] now) as [y1 [uy|]] eqn:Uy; cbn [half bind] in Eu; [|discriminate Eu]. rewrite (f2_armed T _ _ t y ty Tb Ey (A0 1%nat ltac:(lia)) _ _ _ _ Uy) in Eu. cbn [head_r bind] in Eu.
      destruct (f2_convert z [i2] now) as [z1 [uz|]] eqn:Uz; cbn [half bind fst snd] in Eu; [|discriminate Eu]. rewrite (f2_armed T _ _ t z tz Tc Ez (A0 2%nat ltac:(lia)) _ _ _ _ Uz) in Eu. cbn [head_r bind] in Eu.
      injection Eu as _ <-. clear - C. repeat (destruct C as [->|C]; [evz; cbn; f_equal; [lra|f_equal; [lra|f_equal; lra]]|]); subst a; evz; cbn; f_equal; [lra|f_equal; [lra|f_equal; lra]].
Qed.
Lemma fin_quick T c a t c1 ts : finInv T 4 c \/ finInv T 8 c -> fin_set_action c a t = (c1, Ok ts) -> removelast ts = [].
Proof.
  intros H E. assert (HT : times_par T 0 c) by (destruct H as [[_ H]|[_ H]]; exact H). pose proof (fin_same_time T c a t ts HT) as K. rewrite E in K. specialize (K eq_refl).
  destruct c as [c|c|c|c]; try (destruct H as [[H _]|[H _]]; discriminate H); cbn [fin_set_action lift] in E.
  - unfold f4_set_action in E. destruct (discrete_contains 4 a); [|discriminate E]. destruct (f2_set_action (f4_a c) _ t) as [x [tx|]] eqn:Ex; [|discriminate E].
    destruct (f2_set_action (f4_b c) _ t) as [y [ty|]] eqn:Ey; cbn [bind fst snd] in E; [|discriminate E].
    apply (f_equal snd) in E. cbn [snd] in E. assert (E1 : Ok (sort_set (tx ++ ty)) = Ok ts) by exact E. apply (f_equal (fun r => match r with Ok l => l | Err _ => [] end)) in E1. cbn beta iota in E1. rewrite <- E1. apply (same_time_sorted (t + T)). cbn [times_par legs] in HT.
    apply same_time_app; [eapply (f2_same_time T (f4_a c)); [exact (Forall_inv HT)|rewrite Ex; reflexivity]|eapply (f2_same_time T (f4_b c)); [exact (Forall_inv (Forall_inv_tail HT))|rewrite Ey; reflexivity]].
  - unfold f6_set_action in E. destruct (discrete_contains 8 a); [|discriminate E]. destruct (f2_set_action (f6_a c) _ t) as [x [tx|]] eqn:Ex; destruct (f2_set_action (f6_b c) _ t) as [y [ty|]] eqn:Ey;
      destruct (f2_set_action (f6_c c) _ t) as [z [tz|]] eqn:Ez; cbn [bind fst snd] in E; try discriminate E.
    apply (f_equal snd) in E. cbn [snd] in E. assert (E1 : Ok (sort_set (tx ++ ty ++ tz)) = Ok ts) by exact E. apply (f_equal (fun r => match r with Ok l => l | Err _ => [] end)) in E1. cbn beta iota in E1. rewrite <- E1. apply (same_time_sorted (t + T)). cbn [times_par legs] in HT.
    apply same_time_app; [eapply (f2_same_time T (f6_a c)); [exact (Forall_inv HT)|rewrite Ex; reflexivity]|].
    apply same_time_app; [eapply (f2_same_time T (f6_b c)); [exact (Forall_inv (Forall_inv_tail HT))|rewrite Ey; reflexivity]|].
    eapply (f2_same_time T (f6_c c)); [exact (Forall_inv (Forall_inv_tail (Forall_inv_tail HT)))|rewrite Ez; reflexivity].
Qed.
Lemma fin_obeys e T : e = Fin4 \/ e = FinB6 -> obeys fin_if (fun _ => True) (finInv T (fin_space e)) (commanded_fin e).
Proof.
  intros He c a t c1 ts Hc _ E. cbn [fin_if cv_set_action cv_convert] in *. split; [|exact (fin_commands e T c a t c1 ts He Hc E)].
  eapply fin_quick; [|exact E]. destruct He as [-> | ->]; [left|right]; exact Hc.
Qed.
Lemma fm_obeys es T : Forall (fun e => e = Fin4 \/ e = FinB6) es -> obeys multi_if (fun a => length a = length es) (fmInv T (map fin_space es)) (commanded_numbers es).
Proof.
  intros He. assert (K : forall cs a t c1 ts, fmInv T (map fin_space es) cs -> length a = length es -> fm_set_all cs a t = (c1, Ok ts) ->
    fm_fast T cs /\ forall i now c2 u, fm_convert c1 i now = (c2, Ok u) -> u = commanded_numbers es a).
  { induction He as [|e es H1 H2 IH]; intros cs a t c1 ts Hi Hl E.
    - inversion Hi; subst. destruct a; [|discriminate Hl]. cbn in E. injection E as <- <-. split; [constructor|]. intros i now c2 u Eu. cbn in Eu. injection Eu as _ <-. reflexivity.
    - cbn [map] in Hi. inversion Hi as [|? c ? cs' Hc Hcs]; subst. destruct a as [|n a]; [discriminate Hl|]. cbn [length] in Hl. injection Hl as Hl. cbn [fm_set_all] in E.
      destruct (fin_set_action c n t) as [c2 [t2|]] eqn:E2; [|discriminate E]. destruct (fm_set_all cs' a t) as [c3 [t3|]] eqn:E3; cbn [bind] in E; injection E as <- E; [|discriminate E].
      destruct (IH cs' a t c3 t3 Hcs Hl E3) as [F1 F2]. split; [constructor; [apply Hc|exact F1]|]. intros i now c4 u Eu. cbn [fm_convert] in Eu.
      destruct (fin_convert c2 _ now) as [c5 [u2|]] eqn:U2; [|discriminate Eu]. destruct (fm_convert c3 _ now) as [c6 [u3|]] eqn:U3; cbn [bind] in Eu; [|discriminate Eu]. injection Eu as _ <-.
      cbn [commanded_numbers]. rewrite (fin_commands e T c n t c2 t2 H1 Hc E2 _ _ _ _ U2), (F2 _ _ _ _ U3). reflexivity. }
  intros c a t c1 ts Hi Hl E. cbn [multi_if cv_set_action cv_convert] in *. pose proof E as E'. unfold fm_set_action in E. destruct (fm_set_all c a t) as [c2 [t2|]] eqn:E2; cbn [bind] in E; injection E as -> E; [|discriminate E].
  destruct (K c a t c1 t2 Hi Hl E2) as [F1 F2]. split; [eapply (fm_quick T); [exact F1|exact E']|exact F2].
Qed.

(** ** Physical systems *)
Lemma scale_one l us : scale_voltages l [us] = map (fun y => y * us) l.
Proof. unfold scale_voltages. induction l as [|z l IH]; [reflexivity|]. cbn [flat_map map app] in *. now rewrite IH. Qed.
Section System.
Context {C U V : Type} (cv : conv_if C action) (valid : action -> Prop) (InvC : C -> Prop) (cmd : action -> list R) (HO : obeys cv valid InvC cmd).
Context (us : R) (s : any_solver) (f : rhs U) (tau : R) (view : list R -> res V) (cur : V -> list R) (volt volt_last : V -> list R -> res U)
  (out : V -> interval U -> list R -> res (list R)) (limits : list lim) (PS : list R -> Prop).
Lemma sim_commands a (x x1 : gsys C ideal (an_state s U)) o : ginv InvC us s f PS x -> valid a ->
  g_simulate cv ideal_if (an_if s U) tau view cur volt volt_last act_id out limits a x = (x1, Ok o) ->
  exists v iv st, iv_u iv = map (fun y => y * us) (cmd a) /\ volt_last v (iv_u iv) = Ok (iv_par iv) /\ out v iv (gs_state x) = Ok st /\ PS (gs_state x) /\ np_div st limits = Ok o.
Proof.
  intros (I1 & I2 & I3 & I4) Ha E. unfold g_simulate in E. destruct (so_y (an_if s U) (gs_e x)) as [y0|]; cbn [bind] in E; [|cbn [bind] in E; discriminate E]. destruct (view y0) as [v|]; cbn [bind] in E; [|cbn [bind] in E; discriminate E].
  cbn [act_id bind] in E. destruct (cv_set_action cv (gs_c x) a (gs_t x)) as [c1 [ts|]] eqn:Ec; [|cbn [bind] in E; discriminate E].
  destruct (HO _ _ _ _ _ I1 Ha Ec) as [Q1 Q2]. rewrite Q1 in E. cbn [g_intervals] in E. unfold g_interval in E. cbn [g_with_c gs_c gs_t gs_e gs_s] in E.
  destruct (cv_i_sup cv c1 (cur v)) as [isup|]; [|cbn [bind] in E; discriminate E]. cbn [ideal_if sp_get bind g_with_s gs_c gs_t gs_e gs_s] in E. destruct (so_t (an_if s U) (gs_e x)) as [now|]; cbn [bind] in E; [|cbn [bind] in E; discriminate E].
  cbn in E. destruct (cv_convert cv c1 (cur v) now) as [c2 [u|]] eqn:Eu; [|cbn [bind] in E; discriminate E]. pose proof (Q2 _ _ _ _ Eu) as ->. rewrite I2 in E. change (ideal_get (ideal_new us) (gs_t x) isup) with [us] in E.
  rewrite scale_one in E. destruct (volt_last v (map (fun y => y * us) (cmd a))) as [p|] eqn:Ev; [|cbn [bind] in E; discriminate E]. cbn [g_with_c gs_e gs_s gs_t gs_k gs_state] in E.
  destruct (advance_solver (an_if s U) p (gs_t x + tau) (gs_e x)) as [e' [y|]] eqn:Ea; cbn [bind] in E; [|cbn [bind] in E; discriminate E]. cbn [g_with_e g_with_c g_with_s gs_e gs_s gs_t gs_k gs_c gs_state] in E.
  destruct (so_t (an_if s U) e') as [now'|]; cbn [bind] in E; [|cbn [bind] in E; discriminate E]. cbn [gs_state] in E.
  match type of E with context [out v ?iv _] => destruct (out v iv (gs_state x)) as [st|] eqn:Eo; [|cbn [bind] in E; discriminate E]; exists v, iv, st end. cbn [iv_u iv_par]. injection E as _ E. auto.
Qed.
End System.

(** ** Where the voltages are written *)
Definition term_pos (m : motor_class) : list nat :=
  match m with
  | PermExDc | SeriesDc => [3] | ShuntDc => [4] | ExtExDc => [4; 5]
  | Pmsm | Synrm | Scim => [7; 8; 9] | Eesm => [8; 9; 10; 13] | Dfim => [12; 13; 14; 17; 18; 19]
  end%nat.
Definition writes {U V} (m : motor_class) (volt_last : V -> list R -> res U) (out : V -> interval U -> list R -> res (list R)) (PS : list R -> Prop) : Prop :=
  forall v iv st r, PS st -> length (iv_u iv) = phases m -> volt_last v (iv_u iv) = Ok (iv_par iv) -> out v iv st = Ok r ->
  forall k pos, nth_error (term_pos m) k = Some pos -> nth_error r pos = nth_error (iv_u iv) k.
Lemma len1 {A} (l : list A) : length l = 1%nat -> exists a, l = [a].
Proof. destruct l as [|a [|b l]]; try discriminate. eauto. Qed.
Lemma len2 {A} (l : list A) : length l = 2%nat -> exists a b, l = [a; b].
Proof. destruct l as [|a [|b [|c l]]]; try discriminate. eauto. Qed.
Lemma len3 {A} (l : list A) : length l = 3%nat -> exists a b c, l = [a; b; c].
Proof. destruct l as [|a [|b [|c [|d l]]]]; try discriminate. eauto. Qed.
Ltac kcases k pos Hk := destruct k as [|[|[|[|[|[|[|k]]]]]]]; cbn in Hk; try discriminate Hk; injection Hk as <-.
Lemma sync_writes ml mo m : ml_n ml = 1%nat -> mo_nc mo = 2%nat -> m = Pmsm \/ m = Synrm -> writes m sync_volt (sync_out ml mo) (fun _ => True).
Proof.
  intros Hl Hn Hm v iv st r _ Hu Ev E k pos Hk. assert (P : phases m = 3%nat /\ term_pos m = [7; 8; 9]%nat) by (destruct Hm as [-> | ->]; auto). destruct P as [P1 P2]. rewrite P1 in Hu. rewrite P2 in Hk.
  unfold sync_out in E. destruct (select (motor_idx ml mo) (iv_y iv)) as [ms|]; cbn [bind] in E; [|discriminate E]. destruct (mo_torque mo ms) as [tq|]; cbn [bind] in E; [|discriminate E].
  destruct (select (load_idx ml) (iv_y iv)) as [mech|] eqn:Em; cbn [bind] in E; [|discriminate E]. destruct (select (cur_idx ml mo) (iv_y iv)) as [idq|] eqn:Ei; cbn [bind] in E; [|discriminate E].
  destruct (dq_to_abc idq (fst v) false) as [iabc|] eqn:Ea; cbn [bind] in E; [|discriminate E]. destruct (item (iv_y iv) (eps_idx ml mo)) as [eps|]; cbn [bind] in E; [|discriminate E]. injection E as <-.
  apply select_length in Em, Ei. unfold load_idx in Em. unfold cur_idx in Ei. rewrite seq_length, Hl in Em. rewrite seq_length, Hn in Ei. apply dq_to_abc_len in Ea.
  destruct (len1 _ Em) as (x1 & ->). destruct (len2 _ Ei) as (x2 & x3 & ->). destruct (len3 _ Ea) as (x4 & x5 & x6 & ->). destruct (len3 _ Hu) as (u1 & u2 & u3 & ->). kcases k pos Hk; reflexivity.
Qed.
Lemma scim_writes ml mo : ml_n ml = 1%nat -> writes Scim scim_volt (scim_out ml mo) (fun _ => True).
Proof.
  intros Hl v iv st r _ Hu Ev E k pos Hk. cbn [phases] in Hu. cbn [term_pos] in Hk.
  unfold scim_out in E. destruct (abc_to_dq (iv_u iv) (fst v) false) as [udq|]; cbn [bind] in E; [|discriminate E].
  destruct (select (motor_idx ml mo) (iv_y iv)) as [ms|]; cbn [bind] in E; [|discriminate E]. destruct (mo_torque mo ms) as [tq|]; cbn [bind] in E; [|discriminate E].
  destruct (select (load_idx ml) (iv_y iv)) as [mech|] eqn:Em; cbn [bind] in E; [|discriminate E]. destruct (select (stator_idx ml) (iv_y iv)) as [i|] eqn:Ei; cbn [bind] in E; [|discriminate E].
  destruct (alphabeta_to_dq i (fst v) false) as [idq|] eqn:Ed; cbn [bind] in E; [|discriminate E].
  destruct (dq_to_abc idq (fst v) false) as [iabc|] eqn:Ea; cbn [bind] in E; [|discriminate E]. destruct (item (iv_y iv) (eps_idx ml mo)) as [eps|]; cbn [bind] in E; [|discriminate E]. injection E as <-.
  apply select_length in Em. unfold load_idx in Em. rewrite seq_length, Hl in Em. unfold alphabeta_to_dq, q_inv in Ed. pose proof (q_len _ _ _ Ed) as Ld. apply dq_to_abc_len in Ea.
  destruct (len1 _ Em) as (x1 & ->). destruct (len2 _ Ld) as (x2 & x3 & ->). destruct (len3 _ Ea) as (x4 & x5 & x6 & ->). destruct (len3 _ Hu) as (u1 & u2 & u3 & ->). kcases k pos Hk; reflexivity.
Qed.
Lemma eesm_writes ml mo : ml_n ml = 1%nat -> mo_nc mo = 3%nat -> writes Eesm eesm_volt_last (eesm_out ml mo) (fun _ => True).
Proof.
  intros Hl Hn v iv st r _ Hu Ev E k pos Hk. cbn [phases] in Hu. cbn [term_pos] in Hk.
  unfold eesm_out in E. destruct (select (motor_idx ml mo) (iv_y iv)) as [ms|]; cbn [bind] in E; [|discriminate E]. destruct (mo_torque mo ms) as [tq|]; cbn [bind] in E; [|discriminate E].
  destruct (select (load_idx ml) (iv_y iv)) as [mech|] eqn:Em; cbn [bind] in E; [|discriminate E]. destruct (select (cur_idx ml mo) (iv_y iv)) as [idq|] eqn:Ei; cbn [bind] in E; [|discriminate E].
  destruct (dq_to_abc (firstn 2 idq) (fst v) false) as [iabc|] eqn:Ea; cbn [bind] in E; [|discriminate E]. destruct (item (iv_y iv) (eps_idx ml mo)) as [eps|]; cbn [bind] in E; [|discriminate E]. injection E as <-.
  apply select_length in Em, Ei. unfold load_idx in Em. unfold cur_idx in Ei. rewrite seq_length, Hl in Em. rewrite seq_length, Hn in Ei. apply dq_to_abc_len in Ea.
  unfold eesm_volt_last in Ev. destruct (abc_to_dq (firstn 3 (iv_u iv)) (fst v) false) as [dd|] eqn:Ed; cbn [bind] in Ev; [|discriminate Ev]. injection Ev as <-. apply abc_to_dq_len in Ed. destruct Ed as [_ Ld].
  destruct (len1 _ Em) as (x1 & ->). destruct (len3 _ Ei) as (x2 & x3 & x7 & ->). destruct (len3 _ Ea) as (x4 & x5 & x6 & ->). destruct (len2 _ Ld) as (d1 & d2 & ->).
  destruct (iv_u iv) as [|u1 [|u2 [|u3 [|u4 [|u5 u]]]]]; try discriminate Hu. kcases k pos Hk; reflexivity.
Qed.
Lemma dfim_writes ml mo im : ml_n ml = 1%nat -> writes Dfim (dfim_volt 3 3) (dfim_out ml mo im 3 3) (fun _ => True).
Proof.
  intros Hl [[[ef eel] v1] v2] iv st r _ Hu Ev E k pos Hk. cbn [phases] in Hu. cbn [term_pos] in Hk. unfold dfim_out in E.
  destruct (abc_to_dq (stator_part 3 (iv_u iv)) ef false) as [usdq|] eqn:E1; cbn [bind] in E; [|discriminate E]. destruct (abc_to_dq (rotor_part 3 3 (iv_u iv)) (ef - eel) false) as [urdq|] eqn:E2; cbn [bind] in E; [|discriminate E].
  destruct (select (motor_idx ml mo) (iv_y iv)) as [ms|]; cbn [bind] in E; [|discriminate E]. destruct (mo_torque mo ms) as [tq|]; cbn [bind] in E; [|discriminate E].
  destruct (select (load_idx ml) (iv_y iv)) as [mech|] eqn:Em; cbn [bind] in E; [|discriminate E]. destruct (select (stator_idx ml) (iv_y iv)) as [i|] eqn:Ei; cbn [bind] in E; [|discriminate E].
  destruct (alphabeta_to_dq i ef false) as [isdq|] eqn:E3; cbn [bind] in E; [|discriminate E]. destruct (dq_to_abc isdq ef false) as [isabc|] eqn:E4; cbn [bind] in E; [|discriminate E].
  destruct (rotor_alphabeta ml im (iv_y iv)) as [rr|]; cbn [bind] in E; [|discriminate E]. destruct (alphabeta_to_dq rr ef false) as [irdq|] eqn:E5; cbn [bind] in E; [|discriminate E].
  destruct (dq_to_abc irdq (ef - eel) false) as [irdef|] eqn:E6; cbn [bind] in E; [|discriminate E]. destruct (item (iv_y iv) (eps_idx ml mo)) as [eps|]; cbn [bind] in E; [|discriminate E]. injection E as <-.
  apply select_length in Em. unfold load_idx in Em. rewrite seq_length, Hl in Em. unfold alphabeta_to_dq, q_inv in E3, E5. apply q_len in E3, E5. apply dq_to_abc_len in E4, E6. apply abc_to_dq_len in E1. destruct E1 as [_ E1].
  destruct (len1 _ Em) as (x1 & ->). destruct (len2 _ E3) as (x2 & x3 & ->). destruct (len3 _ E4) as (x4 & x5 & x6 & ->). destruct (len2 _ E5) as (y2 & y3 & ->). destruct (len3 _ E6) as (y4 & y5 & y6 & ->). destruct (len2 _ E1) as (z1 & z2 & ->).
  destruct (iv_u iv) as [|u1 [|u2 [|u3 [|u4 [|u5 [|u6 [|u7 u]]]]]]]; try discriminate Hu. kcases k pos Hk; reflexivity.
Qed.
Lemma put_read idx vals a r j : put idx vals a = Ok r -> ~ In j idx -> nth_error r j = nth_error a j.
Proof.
  unfold put. destruct (forallb _ idx); [|discriminate]. destruct (Nat.eqb _ _); [intros E Hj; injection E as <-; apply put_all_out, Hj|]. destruct vals as [|v [|w l]]; try discriminate. intros E Hj. injection E as <-. apply put_all_out, Hj.
Qed.
Lemma dc_writes ml mo m : ml_n ml = 1%nat -> (1 + 1 + mo_nc mo)%nat = hd 0%nat (term_pos m) -> term_pos m = seq (2 + mo_nc mo) (phases m) ->
  writes m dc_volt (dc_out ml mo (phases m) 1) (fun st => True).
Proof.
  intros Hl Hh Ht v iv st r Hst Hu Ev E k pos Hk. unfold dc_out in E.
  destruct (select (motor_idx ml mo) (iv_y iv)) as [ms|]; cbn [bind] in E; [|discriminate E]. destruct (mo_torque mo ms) as [tq|]; cbn [bind] in E; [|discriminate E].
  destruct (put (load_idx ml) _ st) as [st1|] eqn:E1; cbn [bind] in E; [|discriminate E]. destruct (put _ [tq] st1) as [st2|] eqn:E2; cbn [bind] in E; [|discriminate E].
  destruct (select (mo_cidx mo) _) as [cs|]; cbn [bind] in E; [|discriminate E]. destruct (put _ cs st2) as [st3|] eqn:E3; cbn [bind] in E; [|discriminate E]. destruct (put _ (iv_u iv) st3) as [st4|] eqn:E4; cbn [bind] in E; [|discriminate E].
  unfold dc_usup_idx, dc_voltages_idx, dc_torque_idx in *. rewrite Hl in *. rewrite Ht in Hk.
  assert (Hp : (k < phases m)%nat /\ pos = (2 + mo_nc mo + k)%nat). { pose proof (nth_error_Some (seq (2 + mo_nc mo) (phases m)) k) as N. rewrite seq_length in N. assert (K : (k < phases m)%nat) by (apply N; congruence). split; [exact K|].
    rewrite (nth_error_nth' _ 0%nat) in Hk by (rewrite seq_length; exact K). rewrite seq_nth in Hk by exact K. congruence. }
  destruct Hp as [Hp ->]. rewrite (put_read _ _ _ _ _ E) by (rewrite in_seq; lia).
  unfold put in E4. destruct (forallb _ _) eqn:F; [|discriminate E4]. rewrite seq_length, Hu, Nat.eqb_refl in E4. injection E4 as <-.
  destruct (nth_error (iv_u iv) k) as [y|] eqn:Ey; [|apply nth_error_None in Ey; lia].
  eapply put_all_in; [apply seq_NoDup| |exact Ey|]; [rewrite (nth_error_nth' _ 0%nat) by (rewrite seq_length; exact Hp); rewrite seq_nth by exact Hp; reflexivity|].
  rewrite forallb_forall in F. specialize (F (2 + mo_nc mo + k)%nat). apply Nat.ltb_lt. apply F. apply in_seq. lia.
Qed.

(** ** The physical system of an entry *)
Record plant_obeys (p : preset) (d : data) (pl : plant) (valid : action -> Prop) (cmd : action -> list R) (Inv : pl_state pl -> Prop) : Prop := {
  po_forgets : machine_forgets (pl_machine pl) valid Inv (fun _ _ => False) (fun _ _ => False);
  po_init : Inv (pl_init pl);
  po_seed : forall z s, Inv s -> Inv (pl_seed pl z s);
  po_info : i_names (m_info (pl_machine pl)) = motor_states (pr_motor p);
  po_sim : forall a s s1 o, Inv s -> valid a -> m_sim (pl_machine pl) a s = (s1, Ok o) -> forall k pos, nth_error (term_pos (pr_motor p)) k = Some pos ->
    exists u l, nth_error (cmd a) k = Some u /\ nth_error (d_limits d) pos = Some l /\ nth_error o pos = Some (u * pr_supply p / l) }.
Section Drive.
Context (p : preset) (d : data) {C : Type} (cv : conv_if C action) (c0 : C) (valid : action -> Prop) (InvC : C -> Prop) (R0 R1 : C -> C -> Prop) (cmd : action -> list R).
Context (HC : conv_forgets cv valid InvC R0 R1) (H0 : InvC c0) (HO : obeys cv valid InvC cmd) (HL : forall a, valid a -> length (cmd a) = phases (pr_motor p)).
Lemma make_plant_obeys {U V} (f : rhs U) (view : list R -> res V) cur volt volt_last out obs : writes (pr_motor p) volt_last out (fun _ => True) ->
  exists Inv, plant_obeys p d (make_plant p d c0 f (g_reset cv ideal_if (an_if (d_solver d) U) (limits d) obs)
    (g_simulate cv ideal_if (an_if (d_solver d) U) (pr_tau p) view cur volt volt_last act_id out (limits d))) valid cmd Inv.
Proof.
  intros HW. set (gi := ginv InvC (pr_supply p) (d_solver d) f (fun _ => True)). exists (fun x => gi (fst x)).
  constructor; [constructor| | | |]; cbn [make_plant pl_machine m_reset m_sim pl_init pl_seed pl_k m_info plant_info i_names].
  - intros [s k] s1 o Hi E. cbn [fst snd] in *. destruct (g_reset _ _ _ _ _ _ s) as [x1 r] eqn:G. injection E as <- ->. cbn [fst]. eapply rst_inv; eassumption.
  - intros a [s k] s1 o Hi E. cbn [fst snd] in *. destruct (g_simulate _ _ _ _ _ _ _ _ _ _ _ a s) as [x1 r] eqn:G. injection E as <- ->. cbn [fst]. eapply sim_inv; [exact HC| |exact Hi|exact G]. auto.
  - intros s s' s1 s1' o o' [].
  - intros a s s' s1 s1' o o' _ [].
  - intros s s' [].
  - cbn [fst]. split; [exact H0|]. split; [reflexivity|]. split; [|exact I]. exists []. split; [constructor|reflexivity].
  - intros z [s k] H. exact H.
  - reflexivity.
  - intros a [s k] s1 o Hi Ha E j pos Hj. cbn [fst snd] in *. destruct (g_simulate _ _ _ _ _ _ _ _ _ _ _ a s) as [x1 r] eqn:G. injection E as <- ->.
    destruct (sim_commands cv valid InvC cmd HO _ _ _ _ _ _ _ _ _ _ _ a s x1 o Hi Ha G) as (v & iv & st & Q1 & Q2 & Q3 & Q4 & Q5).
    assert (Lu : length (iv_u iv) = phases (pr_motor p)) by (rewrite Q1, map_length; apply HL, Ha). pose proof (HW v iv _ st I Lu Q2 Q3 j pos Hj) as W.
    assert (Hlen : (j < length (cmd a))%nat). { rewrite HL by exact Ha. assert (T : length (term_pos (pr_motor p)) = phases (pr_motor p)) by (destruct (pr_motor p); reflexivity). rewrite <- T. apply nth_error_Some. congruence. }
    destruct (nth_error (cmd a) j) as [u|] eqn:Eu; [|apply nth_error_None in Eu; lia]. rewrite Q1, nth_error_map, Eu in W. cbn [option_map] in W.
    unfold np_div in Q5. destruct (Nat.eqb_spec (length st) (length (limits d))) as [L|L]; [|discriminate Q5]. injection Q5 as <-. unfold limits in *. rewrite map_length in L.
    assert (P : (pos < length (d_limits d))%nat) by (rewrite <- L; apply nth_error_Some; congruence). destruct (nth_error (d_limits d) pos) as [l|] eqn:El; [|apply nth_error_None in El; lia].
    exists u, l. split; [reflexivity|]. split; [reflexivity|]. rewrite map2_nth_error, W, nth_error_map, El. reflexivity.
Qed.
Lemma drive_obeys pl : drive p d cv c0 = Some pl -> exists Inv, plant_obeys p d pl valid cmd Inv.
Proof.
  intros E. assert (Hl : ml_n (load p d) = 1%nat) by (unfold load; destruct (pr_load p); reflexivity).
  unfold drive in E. destruct (pr_sys p); destruct (pr_motor p) eqn:Em in E; try discriminate E; injection E as <-; apply make_plant_obeys; rewrite Em.
  - refine (dc_writes _ _ PermExDc _ _ _); auto.
  - refine (dc_writes _ _ ExtExDc _ _ _); auto.
  - refine (dc_writes _ _ SeriesDc _ _ _); auto.
  - refine (dc_writes _ _ ShuntDc _ _ _); auto.
  - apply sync_writes; auto.
  - apply sync_writes; auto.
  - apply eesm_writes; auto.
  - apply scim_writes; auto.
  - apply dfim_writes; auto.
Qed.
End Drive.

Lemma commanded_length c a : match c with Single _ => True | Multi b l => forallb (fun e => Bool.eqb (is_fin e) b) l = true end -> act_valid (action_space c) a -> length (commanded c a) = conv_phases c.
Proof.
  intros Hm H. destruct c as [e|[|] l].
  - destruct e, a as [n|ns|x|]; cbn in H; try contradiction; cbn; rewrite ?map_length; auto.
  - destruct a as [n|ns|x|]; cbn [action_space act_valid] in H; try contradiction. cbn [commanded conv_phases]. clear Hm. revert ns H. induction l as [|e l IH]; intros ns H; inversion H as [|? n ? ns' H1 H2]; subst; [reflexivity|].
    cbn [commanded_numbers map list_sum fold_right]. rewrite app_length, (IH ns' H2). f_equal. destruct e; reflexivity.
  - destruct a as [n|ns|x|]; cbn [action_space act_valid] in H; try contradiction. cbn [commanded conv_phases]. revert x H. induction l as [|e l IH]; intros x H; [reflexivity|].
    cbn [forallb] in Hm. apply andb_prop in Hm. destruct Hm as [Hm1 Hm2]. cbn [map list_sum fold_right] in H |- *. fold (list_sum (map con_space l)) in H. cbn [commanded_parts]. rewrite app_length. rewrite (IH Hm2).
    + f_equal. destruct e; try discriminate Hm1; unfold commanded_cont; rewrite map_length, firstn_length; cbn [con_space channels] in *; lia.
    + rewrite skipn_length. destruct e; try discriminate Hm1; cbn [con_space channels] in *; lia.
Qed.
Lemma physical_system_obeys p d pl : plant_check p = true -> physical_system p d = Some pl ->
  exists Inv, plant_obeys p d pl (act_valid (action_space (pr_conv p))) (commanded (pr_conv p)) Inv.
Proof.
  intros HP E. unfold plant_check in HP. apply andb_prop in HP. destruct HP as [HP Hm]. apply andb_prop in HP. destruct HP as [_ Hph]. apply Nat.eqb_eq in Hph.
  assert (Hm' : match pr_conv p with Single _ => True | Multi b l => forallb (fun e => Bool.eqb (is_fin e) b) l = true end) by (destruct (pr_conv p); [exact I|exact Hm]).
  assert (HL : forall a, act_valid (action_space (pr_conv p)) a -> length (commanded (pr_conv p) a) = phases (pr_motor p)) by (intros a Ha; rewrite commanded_length by assumption; exact Hph).
  assert (CF : forall C (cv : conv_if C action) (v v' : action -> Prop) I0 R0 R1, (forall a, v' a -> v a) -> conv_forgets cv v I0 R0 R1 -> conv_forgets cv v' I0 R0 R1)
    by (intros C cv v v' I0 R0 R1 Hv [F1 F2 F3 F4 F5 F6 F7]; constructor; auto).
  assert (CO : forall C (cv : conv_if C action) (v v' : action -> Prop) I0 cmd, (forall a, v' a -> v a) -> obeys cv v I0 cmd -> obeys cv v' I0 cmd)
    by (intros C cv v v' I0 cmd Hv HO c a t c1 ts Hi Ha; apply HO; auto).
  unfold physical_system in E. destruct (pr_conv p) as [e|[|] l] eqn:Ec.
  - assert (B : forall c, con_of e = Some c -> drive p d (adapt as_box con_if) (con_set_tau (pr_tau p) c) = Some pl -> exists Inv, plant_obeys p d pl (act_valid (action_space (Single e))) (commanded (Single e)) Inv).
    { intros c Hc Ed. assert (V : forall a, act_valid (action_space (Single e)) a -> exists x, as_box a = Some x /\ length x = channels e).
      { intros a Ha. destruct e; try discriminate Hc; destruct (as_box_valid _ _ Ha) as (x & X1 & X2); exists x; auto. }
      refine (drive_obeys p d _ _ _ _ _ _ _ (CF _ _ _ _ _ _ _ _ (adapt_forgets as_box con_if _ _ _ _ (con_forgets _))) _ (CO _ _ _ _ _ _ _ (adapt_obeys as_box con_if _ _ _ _ _ (con_obeys e (pr_tau p) c Hc))) HL pl Ed).
      - intros a Ha. destruct (V a Ha) as (x & X1 & _). eauto.
      - reflexivity.
      - exact V.
      - intros a x Ha. destruct a; try discriminate Ha. injection Ha as ->. reflexivity. }
    assert (F : forall c n, (e = Fin4 \/ e = FinB6) -> new_fin e = Some c -> finInv (1 / 100000) (fin_space e) (fin_set_tau (pr_tau p) c) -> action_space (Single e) = SDisc n ->
      drive p d (adapt as_disc fin_if) (fin_set_tau (pr_tau p) c) = Some pl -> exists Inv, plant_obeys p d pl (act_valid (action_space (Single e))) (commanded (Single e)) Inv).
    { intros c n He Hc Hi Hn Ed. assert (V : forall a, act_valid (action_space (Single e)) a -> exists x, as_disc a = Some x /\ True) by (intros a Ha; rewrite Hn in Ha; destruct (as_disc_valid _ _ Ha) as (x & X1 & _); eauto).
      refine (drive_obeys p d _ _ _ _ _ _ _ (CF _ _ _ _ _ _ _ _ (adapt_forgets as_disc fin_if _ _ _ _ (fin_forgets (1 / 100000) (fin_space e)))) _ (CO _ _ _ _ _ _ _ (adapt_obeys as_disc fin_if _ _ _ _ _ (fin_obeys e (1 / 100000) He))) HL pl Ed).
      - exact V.
      - exact Hi.
      - exact V.
      - intros a x Ha. destruct a; try discriminate Ha. injection Ha as ->. reflexivity. }
    destruct e; cbn [new_fin con_of fin_kind_of] in E.
    + eapply B; [reflexivity|exact E].
    + eapply B; [reflexivity|exact E].
    + eapply F; [auto|reflexivity| |reflexivity|exact E]. split; [reflexivity|]. cbn. repeat constructor; cbn; reflexivity.
    + eapply F; [auto|reflexivity| |reflexivity|exact E]. split; [reflexivity|]. cbn. repeat constructor; cbn; reflexivity.
  - destruct (all_some (map new_fin l)) as [cs|] eqn:Es; [|discriminate E].
    assert (He : Forall (fun e => e = Fin4 \/ e = FinB6) l). { apply Forall_forall. intros e Hin. rewrite forallb_forall in Hm'. specialize (Hm' e Hin). destruct e; auto; discriminate Hm'. }
    assert (V : forall a, act_valid (action_space (Multi true l)) a -> exists x, as_multi a = Some x /\ length x = length l).
    { intros a Ha. destruct a as [|xs| |]; try contradiction. exists xs. split; [reflexivity|]. cbn [action_space act_valid] in Ha. clear - Ha. revert xs Ha. induction l as [|e l IH]; intros xs Ha; inversion Ha; subst; cbn [length]; [reflexivity|]. f_equal. apply IH. assumption. }
    refine (drive_obeys p d _ _ _ _ _ _ _ (CF _ _ _ _ _ _ _ _ (adapt_forgets as_multi multi_if _ _ _ _ (fm_forgets (1 / 100000) (map fin_space l)))) _ (CO _ _ _ _ _ _ _ (adapt_obeys as_multi multi_if _ _ _ _ _ (fm_obeys l (1 / 100000) He))) HL pl E).
    + intros a Ha. destruct (V a Ha) as (x & X1 & X2). exists x. rewrite map_length. auto.
    + apply fins_start; exact Es.
    + exact V.
    + intros a x Ha. destruct a; try discriminate Ha. injection Ha as ->. reflexivity.
  - destruct (all_some (map con_of l)) as [cs|] eqn:Es; [|discriminate E].
    assert (V : forall a, act_valid (action_space (Multi false l)) a -> exists x, as_box a = Some x /\ length x = list_sum (map channels l)).
    { intros a Ha. destruct a as [| |x|]; try contradiction. exists x. split; [reflexivity|]. cbn [action_space act_valid] in Ha. rewrite Ha. f_equal. apply map_ext_in. intros e Hin. rewrite forallb_forall in Hm'. specialize (Hm' e Hin). destruct e; try discriminate Hm'; reflexivity. }
    refine (drive_obeys p d _ _ _ _ _ _ _ (CF _ _ _ _ _ _ _ _ (adapt_forgets as_box cmulti_if _ _ _ _ (cm_forgets _))) _ (CO _ _ _ _ _ _ _ (adapt_obeys as_box cmulti_if _ _ _ _ _ (cm_obeys (pr_tau p) l cs Es))) HL pl E).
    + intros a Ha. destruct (V a Ha) as (x & X1 & X2). eauto.
    + apply cm_inv_refl.
    + exact V.
    + intros a x Ha. destruct a; try discriminate Ha. injection Ha as ->. reflexivity.
Qed.
