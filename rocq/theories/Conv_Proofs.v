(** Proofs about the converters. *)
From Verif Require Import PyBase PyBaseFacts Conv_Model Conv_Spec.

Ltac fa := repeat match goal with |- Forall _ (_ :: _) => apply Forall_cons | |- Forall _ [] => apply Forall_nil end.

(** ** [sort_set] *)
Lemma set_insert_in x y l : In y (set_insert x l) <-> y = x \/ In y l.
Proof.
  induction l as [|z l IH]; simpl; [intuition auto|].
  destruct (rltP x z); [simpl; intuition auto|].
  destruct (reqP x z) as [->|]; simpl; [intuition auto|]. rewrite IH. intuition auto.
Qed.
Lemma set_insert_sorted x l : StronglySorted Rlt l -> StronglySorted Rlt (set_insert x l).
Proof.
  induction l as [|z l IH]; intros H; simpl; [repeat constructor|].
  destruct (rltP x z) as [Hlt|Hge].
  - inversion H as [|? ? Hs Hf]; subst. constructor; [exact H|]. constructor; [exact Hlt|].
    eapply Forall_impl; [|exact Hf]. simpl. intros; lra.
  - destruct (reqP x z) as [->|Hne]; [exact H|]. inversion H as [|? ? Hs Hf]; subst.
    constructor; [auto|]. rewrite Forall_forall in *. intros y Hy. apply set_insert_in in Hy.
    destruct Hy as [->|Hy]; [lra|auto].
Qed.
Lemma sort_set_in y l : In y (sort_set l) <-> In y l.
Proof.
  induction l as [|x l IH]; simpl; [tauto|]. rewrite set_insert_in, IH. intuition auto.
Qed.
Lemma sort_set_sorted l : StronglySorted Rlt (sort_set l).
Proof. induction l as [|x l IH]; simpl; [constructor|]. apply set_insert_sorted, IH. Qed.

Lemma sorted_last l m : StronglySorted Rlt l -> In m l -> (forall x, In x l -> x <= m) ->
  exists pre, l = pre ++ [m].
Proof.
  induction l as [|x l IH]; intros Hs Hin Hle; [contradiction|].
  inversion Hs as [|? ? Hs' Hf]; subst. destruct l as [|y l].
  - simpl in *. destruct Hin as [->|[]]. exists []. reflexivity.
  - destruct IH as [pre E]; [exact Hs'| | |].
    + destruct Hin as [->|Hin]; [|exact Hin]. exfalso. rewrite Forall_forall in Hf.
      specialize (Hf y (or_introl eq_refl)). specialize (Hle y (or_intror (or_introl eq_refl))). lra.
    + intros z Hz. apply Hle. right. exact Hz.
    + exists (x :: pre). rewrite E. reflexivity.
Qed.

(** ** Invariant of the half bridge *)
Definition sw_ok (z : Z) : Prop := (z = 0 \/ z = 1 \/ z = 2)%Z.
Definition f2_ok (c : f2) : Prop := sw_ok (f2_sw c) /\ Forall sw_ok (f2_pat c).

Lemma contains_iff n a : discrete_contains n a = true <-> (0 <= a < n)%Z.
Proof. unfold discrete_contains. rewrite andb_true_iff, Z.leb_le, Z.ltb_lt. tauto. Qed.
Lemma contains_false n a : discrete_contains n a = false <-> ~ (0 <= a < n)%Z.
Proof. rewrite <- contains_iff. destruct (discrete_contains n a); intuition congruence. Qed.

Lemma f2_new_ok tau il : f2_ok (f2_new tau il).
Proof. split; [left; reflexivity|constructor]. Qed.
Lemma f2_pattern_ok c a : sw_ok a -> Forall sw_ok (fst (f2_pattern c a)) /\ fst (f2_pattern c a) <> [].
Proof.
  intros Ha. unfold f2_pattern. destruct (_ || _); simpl; split; try discriminate;
    fa; auto. left; reflexivity.
Qed.
Lemma f2_set_action_ok c a t : f2_ok c -> f2_ok (fst (f2_set_action c a t)).
Proof.
  intros [H1 H2]. unfold f2_set_action. destruct (discrete_contains 3 a) eqn:E; [|split; assumption].
  apply contains_iff in E.
  destruct (f2_pattern _ a) as [p ts] eqn:Ep.
  pose proof (f2_pattern_ok {| f2_tau := f2_tau c; f2_il := f2_il c; f2_start := t; f2_sw := f2_sw c; f2_pat := f2_pat c |} a) as Hp.
  rewrite Ep in Hp. split; simpl; [exact H1|]. apply Hp. unfold sw_ok. lia.
Qed.
Lemma last_in (l : list Z) d : l <> [] -> In (last l d) l.
Proof.
  induction l as [|x l IH]; intros H; [contradiction|]. destruct l as [|y l]; [left; reflexivity|].
  right. apply IH. discriminate.
Qed.
Lemma f2_next_sw_ok c t sw : f2_ok c -> f2_next_sw c t = Ok sw -> sw_ok sw.
Proof.
  intros [_ H] E. unfold f2_next_sw in E. destruct (f2_pat c) as [|p0 p] eqn:Ep; [discriminate|].
  rewrite Forall_forall in H.
  destruct (rlt _ _); injection E as <-; apply H; [exact (last_in (p0 :: p) 0%Z ltac:(discriminate))|left; reflexivity].
Qed.
Lemma f2_convert_ok c i t : f2_ok c -> f2_ok (fst (f2_convert c i t)).
Proof.
  intros H. unfold f2_convert. destruct (f2_next_sw c t) as [sw|e] eqn:E; [|exact H].
  split; simpl; [eapply f2_next_sw_ok; eauto | apply H].
Qed.
Lemma f2_reset_ok c : f2_ok c -> f2_ok (fst (f2_reset c)).
Proof. intros H; exact H. Qed.

Definition fin_ok (c : fin) : Prop :=
  match c with F1 c => (f1_cur c = 0 \/ f1_cur c = 1)%Z | _ => Forall f2_ok (legs c) end.

Lemma f4_sub_ok a : (0 <= a < 4)%Z -> (1 <= f4_action0 a <= 2)%Z /\ (1 <= f4_action1 a <= 2)%Z.
Proof.
  intros H. assert (a = 0 \/ a = 1 \/ a = 2 \/ a = 3)%Z as [-> | [-> | [-> | ->]]] by lia;
    vm_compute; intuition discriminate.
Qed.
Lemma f6_sub_ok a k : (0 <= a < 8)%Z -> (k < 3)%nat -> (1 <= f6_sub a k <= 2)%Z.
Proof.
  intros H Hk.
  assert (a = 0 \/ a = 1 \/ a = 2 \/ a = 3 \/ a = 4 \/ a = 5 \/ a = 6 \/ a = 7)%Z as Ha by lia.
  destruct k as [|[|[|k]]]; [| | |lia];
    destruct Ha as [-> | [-> | [-> | [-> | [-> | [-> | [-> | ->]]]]]]]; vm_compute; intuition discriminate.
Qed.

Lemma f2_set_valid c a t : (0 <= a < 3)%Z ->
  exists c' ts, f2_set_action c a t = (c', Ok ts) /\
    f2_pat c' = fst (f2_pattern {| f2_tau := f2_tau c; f2_il := f2_il c; f2_start := t; f2_sw := f2_sw c; f2_pat := f2_pat c |} a) /\
    ts = snd (f2_pattern {| f2_tau := f2_tau c; f2_il := f2_il c; f2_start := t; f2_sw := f2_sw c; f2_pat := f2_pat c |} a) /\
    f2_sw c' = f2_sw c /\ f2_start c' = t /\ f2_tau c' = f2_tau c /\ f2_il c' = f2_il c.
Proof.
  intros H. unfold f2_set_action. rewrite (proj2 (contains_iff 3 a) H).
  destruct (f2_pattern _ a) as [p ts]. do 2 eexists. split; [reflexivity|]. simpl. repeat split.
Qed.

(** State of the half bridge after [convert] does not depend on the current. *)
Lemma f2_convert_state c i j t : fst (f2_convert c i t) = fst (f2_convert c j t).
Proof. unfold f2_convert. destruct (f2_next_sw c t); reflexivity. Qed.

(** Legs of a converter after a valid action and after a conversion. *)
Definition sub_action (c : fin) (a : Z) : list Z :=
  match c with
  | F1 _ => []
  | F2 _ => [a]
  | F4 _ => [f4_action0 a; f4_action1 a]
  | F6 _ => [f6_sub a 0; f6_sub a 1; f6_sub a 2]
  end.
Lemma sub_action_valid c a : (0 <= a < fin_n c)%Z -> Forall (fun x => (0 <= x < 3)%Z) (sub_action c a).
Proof.
  intros H. destruct c; cbn [fin_n] in H; cbn [sub_action].
  - constructor.
  - repeat constructor; lia.
  - pose proof (f4_sub_ok a H). repeat constructor; lia.
  - pose proof (f6_sub_ok a 0 H). pose proof (f6_sub_ok a 1 H). pose proof (f6_sub_ok a 2 H).
    repeat constructor; lia.
Qed.

Lemma fin_set_invalid c a t : ~ (0 <= a < fin_n c)%Z -> fin_set_action c a t = (c, Err AssertionError).
Proof.
  intros H. apply contains_false in H.
  destruct c; cbn [fin_n] in H; cbn [fin_set_action lift];
    unfold f1_set_action, f2_set_action, f4_set_action, f6_set_action; rewrite H; reflexivity.
Qed.

Definition leg_set (t : R) (c : f2) (a : Z) : f2 := fst (f2_set_action c a t).

Lemma fin_set_valid c a t : (0 <= a < fin_n c)%Z ->
  exists c' ts, fin_set_action c a t = (c', Ok ts) /\
    legs c' = map2 (leg_set t) (legs c) (sub_action c a) /\
    fin_n c' = fin_n c /\ fin_dim c' = fin_dim c /\
    (match c with
     | F1 q => c' = F1 {| f1_tau := f1_tau q; f1_il := f1_il q; f1_start := t; f1_cur := a |} /\ ts = [t + f1_tau q]
     | F2 q => Ok ts = snd (f2_set_action q a t)
     | _ => exists tss, Forall2 (fun l ts' => snd l = Ok ts')
               (map2 (fun l a => f2_set_action l a t) (legs c) (sub_action c a)) tss /\ ts = sort_set (concat tss)
     end).
Proof.
  intros H. pose proof (sub_action_valid c a H) as Hv. apply contains_iff in H.
  destruct c as [c|c|c|c]; cbn [fin_n] in H; cbn [fin_set_action lift fst snd].
  - unfold f1_set_action. rewrite H. do 2 eexists. split; [reflexivity|]. auto.
  - cbn [sub_action] in Hv. inversion Hv as [|? ? Ha _]; subst.
    destruct (f2_set_valid c a t Ha) as (c' & ts & E & _). rewrite E. cbn [fst snd].
    do 2 eexists. split; [reflexivity|]. cbn [legs sub_action map2]. unfold leg_set. rewrite E. auto.
  - unfold f4_set_action. rewrite H. cbn [sub_action] in Hv.
    inversion Hv as [|? ? Ha Hv']; subst. inversion Hv' as [|? ? Hb _]; subst.
    destruct (f2_set_valid (f4_a c) _ t Ha) as (x & tx & Ex & _).
    destruct (f2_set_valid (f4_b c) _ t Hb) as (y & ty & Ey & _).
    rewrite Ex, Ey. cbn [bind fst snd]. do 2 eexists. split; [reflexivity|].
    cbn [legs sub_action map2 f4_a f4_b]. unfold leg_set. rewrite Ex, Ey. cbn [fst snd].
    split; [reflexivity|]. split; [reflexivity|]. split; [reflexivity|].
    exists [tx; ty]. split; [repeat constructor|]. cbn [concat]. now rewrite app_nil_r.
  - unfold f6_set_action. rewrite H. cbn [sub_action] in Hv.
    inversion Hv as [|? ? Ha Hv']; subst. inversion Hv' as [|? ? Hb Hv'']; subst.
    inversion Hv'' as [|? ? Hc _]; subst.
    destruct (f2_set_valid (f6_a c) _ t Ha) as (x & tx & Ex & _).
    destruct (f2_set_valid (f6_b c) _ t Hb) as (y & ty & Ey & _).
    destruct (f2_set_valid (f6_c c) _ t Hc) as (z & tz & Ez & _).
    rewrite Ex, Ey, Ez. cbn [bind fst snd]. do 2 eexists. split; [reflexivity|].
    cbn [legs sub_action map2 f6_a f6_b f6_c]. unfold leg_set. rewrite Ex, Ey, Ez. cbn [fst snd].
    split; [reflexivity|]. split; [reflexivity|]. split; [reflexivity|].
    exists [tx; ty; tz]. split; [repeat constructor|]. cbn [concat]. now rewrite app_nil_r.
Qed.

(** Outputs of the half bridge. *)
Lemma f2_out_val sw i0 i : sw_ok sw -> f2_out sw (i0 :: i) = Ok [ideal_half_bridge sw i0].
Proof. intros [-> | [-> | ->]]; reflexivity. Qed.
Lemma f2_out_any sw i u : f2_out sw i = Ok u -> u = [0] \/ u = [1].
Proof.
  unfold f2_out. destruct (sw =? 0)%Z; [destruct i as [|i0 i]; cbn; [discriminate|]|].
  - intros E. injection E as <-. destruct (rlt i0 0); auto.
  - destruct (sw =? 1)%Z; [intros E; injection E as <-; auto|].
    destruct (sw =? 2)%Z; [intros E; injection E as <-; auto|discriminate].
Qed.
Lemma f2_convert_any c i t u : snd (f2_convert c i t) = Ok u -> u = [0] \/ u = [1].
Proof.
  unfold f2_convert. destruct (f2_next_sw c t); [apply f2_out_any|discriminate].
Qed.
Lemma ideal_half_bridge_01 sw i : ideal_half_bridge sw i = 0 \/ ideal_half_bridge sw i = 1.
Proof. unfold ideal_half_bridge. destruct (_ =? 1)%Z; [auto|]. destruct (_ =? 2)%Z; [auto|]. destruct (rlt i 0); auto. Qed.

(** Conversion with enough currents of a converter that has been given an action. *)
Definition leg_conv (t : R) (c : f2) : f2 := fst (f2_convert c [] t).
Definition pat_set (c : fin) : Prop := Forall (fun l => f2_pat l <> []) (legs c).

Lemma f2_convert_def c i0 i t : f2_ok c -> f2_pat c <> [] ->
  f2_convert c (i0 :: i) t = (leg_conv t c, Ok [ideal_half_bridge (f2_sw (leg_conv t c)) i0]) /\
  f2_next_sw c t = Ok (f2_sw (leg_conv t c)).
Proof.
  intros Hok Hne. unfold leg_conv, f2_convert.
  assert (exists sw, f2_next_sw c t = Ok sw) as [sw E].
  { unfold f2_next_sw. destruct (f2_pat c); [contradiction|]. destruct (rlt _ _); eauto. }
  rewrite E. cbn [fst f2_sw]. split; [|reflexivity]. f_equal. apply f2_out_val. eapply f2_next_sw_ok; eauto.
Qed.

(** What an elementary converter puts out, by its (new) leg states. *)
Definition ideal_out (c : fin) (i : list R) : list R :=
  match c, i with
  | F1 q, i0 :: _ => [if rle 0 i0 then IZR (f1_cur q) else 1]
  | F2 q, i0 :: _ => [ideal_half_bridge (f2_sw q) i0]
  | F4 q, i0 :: _ => [ideal_half_bridge (f2_sw (f4_a q)) i0 - ideal_half_bridge (f2_sw (f4_b q)) (- i0)]
  | F6 q, i0 :: i1 :: i2 :: _ =>
      [ideal_half_bridge (f2_sw (f6_a q)) i0 - /2; ideal_half_bridge (f2_sw (f6_b q)) i1 - /2;
       ideal_half_bridge (f2_sw (f6_c q)) i2 - /2]
  | _, _ => []
  end.

Lemma fin_convert_def c i t : fin_ok c -> pat_set c -> length i = fin_dim c ->
  exists c', fin_convert c i t = (c', Ok (ideal_out c' i)) /\ legs c' = map (leg_conv t) (legs c) /\
    fin_n c' = fin_n c /\ fin_dim c' = fin_dim c /\
    (forall q, c = F1 q -> c' = c).
Proof.
  intros Hok Hp Hl. destruct c as [c|c|c|c]; cbn [fin_dim] in Hl.
  - destruct i as [|i0 [|]]; try discriminate. exists (F1 c). split; [reflexivity|]. auto.
  - destruct i as [|i0 [|]]; try discriminate. cbn [fin_ok legs] in Hok.
    inversion Hok as [|? ? Hc _]; subst. unfold pat_set in Hp; cbn [legs] in Hp. inversion Hp as [|? ? Hpc _]; subst.
    cbn [fin_convert lift]. destruct (f2_convert_def c i0 [] t Hc Hpc) as [E _]. rewrite E.
    exists (F2 (leg_conv t c)). split; [reflexivity|]. repeat split; auto. intros q Hq. discriminate.
  - destruct i as [|i0 [|]]; try discriminate. cbn [fin_ok legs] in Hok.
    inversion Hok as [|? ? Ha Hok']; subst. inversion Hok' as [|? ? Hb _]; subst.
    unfold pat_set in Hp; cbn [legs] in Hp. inversion Hp as [|? ? Hpa Hp']; subst. inversion Hp' as [|? ? Hpb _]; subst.
    cbn [fin_convert lift]. unfold f4_convert.
    destruct (f2_convert_def (f4_a c) i0 [] t Ha Hpa) as [Ea _].
    destruct (f2_convert_def (f4_b c) (- i0) [] t Hb Hpb) as [Eb _].
    rewrite Ea, Eb. cbn [bind head_r fst snd].
    exists (F4 {| f4_tau := f4_tau c; f4_a := leg_conv t (f4_a c); f4_b := leg_conv t (f4_b c) |}). split; [reflexivity|]. repeat split; auto. intros q Hq. discriminate.
  - destruct i as [|i0 [|i1 [|i2 [|]]]]; try discriminate. cbn [fin_ok legs] in Hok.
    inversion Hok as [|? ? Ha Hok']; subst. inversion Hok' as [|? ? Hb Hok'']; subst. inversion Hok'' as [|? ? Hc _]; subst.
    unfold pat_set in Hp; cbn [legs] in Hp. inversion Hp as [|? ? Hpa Hp']; subst.
    inversion Hp' as [|? ? Hpb Hp'']; subst. inversion Hp'' as [|? ? Hpc _]; subst.
    cbn [fin_convert lift]. unfold f6_convert.
    destruct (f2_convert_def (f6_a c) i0 [] t Ha Hpa) as [Ea _].
    destruct (f2_convert_def (f6_b c) i1 [] t Hb Hpb) as [Eb _].
    destruct (f2_convert_def (f6_c c) i2 [] t Hc Hpc) as [Ec _].
    rewrite Ea, Eb, Ec. cbn [half bind head_r fst snd].
    exists (F6 {| f6_tau := f6_tau c; f6_a := leg_conv t (f6_a c); f6_b := leg_conv t (f6_b c);
                  f6_c := leg_conv t (f6_c c) |}). split; [reflexivity|]. repeat split; auto. intros q Hq. discriminate.
Qed.

(** Invariant over arbitrary calls. *)
Lemma fin_step_ok c o : fin_ok c -> fin_ok (fin_step c o).
Proof.
  intros H. destruct o as [a t|i t|i| |v]; cbn [fin_step].
  - destruct (Z_le_dec 0 a) as [Hle|Hgt];
      [destruct (Z_lt_dec a (fin_n c)) as [Hlt|Hge]|].
    + destruct (fin_set_valid c a t (conj Hle Hlt)) as (c' & ts & E & Hl & Hn & _ & Hx). rewrite E. cbn [fst].
      destruct c as [q|q|q|q].
      * destruct Hx as [-> _]. cbn in *. lia.
      * destruct c'; cbn in Hn; try discriminate. cbn [fin_ok] in *. rewrite Hl. cbn [legs sub_action map2] in *.
        inversion H; subst. fa; now apply f2_set_action_ok.
      * destruct c'; cbn in Hn; try discriminate. cbn [fin_ok] in *. rewrite Hl. cbn [legs sub_action map2] in *.
        inversion H as [|? ? Ha H']; subst. inversion H'; subst. fa; now apply f2_set_action_ok.
      * destruct c'; cbn in Hn; try discriminate. cbn [fin_ok] in *. rewrite Hl. cbn [legs sub_action map2] in *.
        inversion H as [|? ? Ha H']; subst. inversion H' as [|? ? Hb H'']; subst. inversion H''; subst.
        fa; now apply f2_set_action_ok.
    + rewrite fin_set_invalid by lia. exact H.
    + rewrite fin_set_invalid by lia. exact H.
  - destruct c as [c|c|c|c]; cbn [fin_convert lift fst].
    + exact H.
    + cbn [fin_ok legs] in *. inversion H; subst. fa; now apply f2_convert_ok.
    + cbn [fin_ok legs] in *. inversion H as [|? ? Ha H']; subst. inversion H'; subst. unfold f4_convert.
      pose proof (f2_convert_ok (f4_a c) i t Ha) as Hx.
      destruct (f2_convert (f4_a c) i t) as [x ux]. cbn [fst] in Hx.
      destruct ux as [[|ux [|]]|]; try (fa; assumption).
      destruct i as [|i0 i]; try (fa; assumption).
      destruct (f2_convert (f4_b c) [- i0] t) as [y uy] eqn:Ey. cbn [fst f4_a f4_b].
      pose proof (f2_convert_ok (f4_b c) [- i0] t ltac:(assumption)) as Hy; rewrite Ey in Hy. fa; assumption.
    + cbn [fin_ok legs] in *. inversion H as [|? ? Ha H']; subst. inversion H' as [|? ? Hb H'']; subst. inversion H'' as [|? ? Hc _]; subst.
      unfold f6_convert. destruct i as [|i0 i]; [fa; assumption|].
      pose proof (f2_convert_ok (f6_a c) [i0] t Ha) as Hx.
      destruct (f2_convert (f6_a c) [i0] t) as [x ux]. cbn [fst] in Hx.
      destruct (half ux); [|fa; assumption].
      destruct i as [|i1 i]; [fa; assumption|].
      pose proof (f2_convert_ok (f6_b c) [i1] t Hb) as Hy.
      destruct (f2_convert (f6_b c) [i1] t) as [y uy]. cbn [fst] in Hy.
      destruct (half uy); [|fa; assumption].
      destruct i as [|i2 i]; [fa; assumption|].
      pose proof (f2_convert_ok (f6_c c) [i2] t Hc) as Hz.
      destruct (f2_convert (f6_c c) [i2] t) as [z uz]. cbn [fst] in Hz.
      fa; assumption.
  - exact H.
  - destruct c; [left; reflexivity| | |]; cbn [fin_reset lift fst fin_ok legs f4_reset f6_reset f4_a f4_b f6_a f6_b f6_c] in *;
      repeat match goal with X : Forall _ (_ :: _) |- _ => apply Forall_cons_iff in X; destruct X end;
      fa; now apply f2_reset_ok.
  - destruct c; [exact H| | |]; cbn [fin_set_tau fin_ok legs f4_set_tau f6_set_tau f4_a f4_b f6_a f6_b f6_c] in *;
      repeat match goal with X : Forall _ (_ :: _) |- _ => apply Forall_cons_iff in X; destruct X end;
      fa; assumption.
Qed.
Lemma fin_run_ok ops : forall c, fin_ok c -> fin_ok (fin_run c ops).
Proof. induction ops as [|o ops IH]; intros c H; [exact H|]. apply IH, fin_step_ok, H. Qed.
Lemma fin_new_ok k tau il : fin_ok (fin_new k tau il).
Proof. destruct k; cbn; repeat constructor. Qed.

Lemma fin_step_kind c o : fin_n (fin_step c o) = fin_n c /\ fin_dim (fin_step c o) = fin_dim c /\
  fin_u_low (fin_step c o) = fin_u_low c /\ fin_u_high (fin_step c o) = fin_u_high c.
Proof. destruct c, o; cbn; auto. Qed.
Lemma fin_run_kind ops : forall c, fin_n (fin_run c ops) = fin_n c /\ fin_dim (fin_run c ops) = fin_dim c /\
  fin_u_low (fin_run c ops) = fin_u_low c /\ fin_u_high (fin_run c ops) = fin_u_high c.
Proof.
  induction ops as [|o ops IH]; intros c; [auto|]. cbn [fin_run fold_left].
  destruct (fin_step_kind c o) as (H1 & H2 & H3 & H4), (IH (fin_step c o)) as (G1 & G2 & G3 & G4).
  unfold fin_run in *. rewrite G1, G2, G3, G4, H1, H2, H3, H4. auto.
Qed.

(** Output box *)
Lemma fin_convert_box c i t u : fin_ok c -> snd (fin_convert c i t) = Ok u ->
  in_box (fin_u_low c) (fin_u_high c) u.
Proof.
  intros H. destruct c as [c|c|c|c]; cbn [fin_convert lift snd fin_u_low fin_u_high].
  - unfold f1_convert. cbn [snd]. destruct i as [|i0 i]; cbn; [discriminate|]. intros E. injection E as <-.
    cbn in H. destruct (rle 0 i0); [destruct H as [-> | ->]|]; split; repeat constructor; lra.
  - intros E. apply f2_convert_any in E. destruct E as [-> | ->]; split; repeat constructor; lra.
  - unfold f4_convert. pose proof (f2_convert_any (f4_a c) i t) as Ha.
    destruct (f2_convert (f4_a c) i t) as [x ux]. cbn [snd] in Ha.
    destruct ux as [[|ux [|]]|]; try discriminate. destruct i as [|i0 i]; try discriminate.
    pose proof (f2_convert_any (f4_b c) [- i0] t) as Hb.
    destruct (f2_convert (f4_b c) [- i0] t) as [y uy]. cbn [snd] in *.
    destruct uy as [uy|]; cbn [bind]; [|discriminate].
    destruct (Ha _ eq_refl) as [E1|E1], (Hb _ eq_refl) as [-> | ->]; injection E1 as ->; cbn;
      intros E; injection E as <-; split; repeat constructor; lra.
  - unfold f6_convert. destruct i as [|i0 i]; [discriminate|].
    pose proof (f2_convert_any (f6_a c) [i0] t) as Ha.
    destruct (f2_convert (f6_a c) [i0] t) as [x ux]. cbn [snd] in Ha.
    destruct ux as [ux|]; cbn [half bind]; [|discriminate].
    destruct (Ha _ eq_refl) as [-> | ->]; cbn [head_r bind];
    (destruct i as [|i1 i]; [discriminate|];
    pose proof (f2_convert_any (f6_b c) [i1] t) as Hb;
    destruct (f2_convert (f6_b c) [i1] t) as [y uy]; cbn [snd] in Hb;
    destruct uy as [uy|]; cbn [half bind]; [|discriminate];
    destruct (Hb _ eq_refl) as [-> | ->]; cbn [head_r bind];
    (destruct i as [|i2 i]; [discriminate|];
     pose proof (f2_convert_any (f6_c c) [i2] t) as Hc;
     destruct (f2_convert (f6_c c) [i2] t) as [z uz]; cbn [snd] in *;
     destruct uz as [uz|]; cbn [half bind]; [|discriminate];
     destruct (Hc _ eq_refl) as [-> | ->]; cbn [head_r bind];
     intros E; injection E as <-; split; repeat constructor; lra)).
Qed.

(** Patterns stay set. *)
Lemma fin_set_valid_pat c a t : (0 <= a < fin_n c)%Z -> pat_set (fst (fin_set_action c a t)).
Proof.
  intros H. destruct (fin_set_valid c a t H) as (c' & ts & E & Hl & _). rewrite E. cbn [fst].
  unfold pat_set. rewrite Hl. pose proof (sub_action_valid c a H) as Hv. clear -Hv.
  revert Hv. generalize (sub_action c a). induction (legs c) as [|x l IH]; intros [|b bs] Hv; cbn [map2]; constructor.
  - inversion Hv; subst. unfold leg_set.
    destruct (f2_set_valid x b t ltac:(assumption)) as (x' & tx & Ex & Hp & _). rewrite Ex. cbn [fst]. rewrite Hp.
    apply f2_pattern_ok. unfold sw_ok. lia.
  - inversion Hv; subst. auto.
Qed.

(** ** Multi converter: pointwise behaviour *)

Lemma fm_convert_pointwise cs : forall i t us,
  Forall2 (fun ci u => snd (fin_convert (fst ci) (snd ci) t) = Ok u) (combine cs (slices (map fin_dim cs) i)) us ->
  fm_convert cs i t = (map (fun ci => fst (fin_convert (fst ci) (snd ci) t)) (combine cs (slices (map fin_dim cs) i)),
                       Ok (concat us)).
Proof.
  induction cs as [|c cs IH]; intros i t us H; cbn [map slices combine] in H.
  - inversion H; subst. reflexivity.
  - inversion H as [|? u ? us' Hu Hus]; subst. cbn [fst snd] in Hu. cbn [fm_convert].
    cbn [map slices combine fst snd]. destruct (fin_convert c (firstn (fin_dim c) i) t) as [c' u'] eqn:E.
    cbn [snd] in Hu. subst u'. rewrite (IH _ _ _ Hus). reflexivity.
Qed.

Lemma fm_set_pointwise cs : forall a t tss,
  length a = length cs ->
  Forall2 (fun ca ts => snd (fin_set_action (fst ca) (snd ca) t) = Ok ts) (combine cs a) tss ->
  fm_set_all cs a t = (map (fun ca => fst (fin_set_action (fst ca) (snd ca) t)) (combine cs a), Ok (concat tss)).
Proof.
  induction cs as [|c cs IH]; intros [|a0 a] t tss Hl H; try discriminate.
  - inversion H; subst. reflexivity.
  - cbn [combine] in H. inversion H as [|? ts ? tss' Ht Hts]; subst. cbn [fst snd] in Ht.
    cbn [fm_set_all combine map fst snd]. destruct (fin_set_action c a0 t) as [c' ts'] eqn:E. cbn [snd] in Ht. subst ts'.
    injection Hl as Hl. rewrite (IH _ _ _ Hl Hts). reflexivity.
Qed.
Lemma fm_i_sup_pointwise cs : forall i xs,
  Forall2 (fun ci x => fin_i_sup (fst ci) (snd ci) = Ok x) (combine cs (slices (map fin_dim cs) i)) xs ->
  fm_i_sup cs i = Ok (rsum xs).
Proof.
  induction cs as [|c cs IH]; intros i xs H; cbn [map slices combine] in H.
  - inversion H; subst. reflexivity.
  - inversion H as [|? x ? xs' Hx Hxs]; subst. cbn [fst snd] in Hx. cbn [fm_i_sup]. rewrite Hx. cbn [bind].
    rewrite (IH _ _ Hxs). reflexivity.
Qed.

Lemma fm_step_ok cs o : Forall fin_ok cs -> Forall fin_ok (fm_step cs o) /\
  map fin_u_low (fm_step cs o) = map fin_u_low cs /\ map fin_u_high (fm_step cs o) = map fin_u_high cs.
Proof.
  destruct o as [a t|i t| |v]; cbn [fm_step].
  - unfold fm_set_action. intros H. destruct (fm_set_all cs a t) as [cs' r] eqn:E. cbn [fst].
    revert a cs' r E. induction H as [|c cs Hc Hcs IH]; intros [|a0 a] cs' r E; cbn [fm_set_all] in E; try (injection E as <- <-; auto).
    pose proof (fin_step_ok c (OpSet a0 t) Hc) as Hs. pose proof (fin_step_kind c (OpSet a0 t)) as (_ & _ & Hlo & Hhi).
    cbn [fin_step] in *. destruct (fin_set_action c a0 t) as [c' [ts|e]]; cbn [fst] in *.
    + destruct (fm_set_all cs a t) as [cs'' rest] eqn:E2. injection E as <- <-.
      destruct (IH _ _ _ E2) as (I1 & I2 & I3). split; [auto|]. cbn [map]. now rewrite Hlo, Hhi, I2, I3.
    + injection E as <- <-. split; [auto|]. cbn [map]. now rewrite Hlo, Hhi.
  - intros H. destruct (fm_convert cs i t) as [cs' r] eqn:E. cbn [fst].
    revert i cs' r E. induction H as [|c cs Hc Hcs IH]; intros i cs' r E; cbn [fm_convert] in E; [injection E as <- <-; auto|].
    pose proof (fin_step_ok c (OpConvert (firstn (fin_dim c) i) t) Hc) as Hs.
    pose proof (fin_step_kind c (OpConvert (firstn (fin_dim c) i) t)) as (_ & _ & Hlo & Hhi).
    cbn [fin_step] in *. destruct (fin_convert c (firstn (fin_dim c) i) t) as [c' [u|e]]; cbn [fst] in *.
    + destruct (fm_convert cs (skipn (fin_dim c) i) t) as [cs'' rest] eqn:E2. injection E as <- <-.
      destruct (IH _ _ _ E2) as (I1 & I2 & I3). split; [auto|]. cbn [map]. now rewrite Hlo, Hhi, I2, I3.
    + injection E as <- <-. split; [auto|]. cbn [map]. now rewrite Hlo, Hhi.
  - intros H. induction H as [|c cs Hc Hcs IH]; cbn [fm_reset fst]; [auto|].
    pose proof (fin_step_ok c OpReset Hc) as Hs. pose proof (fin_step_kind c OpReset) as (_ & _ & Hlo & Hhi).
    cbn [fin_step] in *. destruct (fin_reset c) as [c' u]. destruct (fm_reset cs) as [cs'' us]. cbn [fst] in *.
    destruct IH as (I1 & I2 & I3). split; [auto|]. cbn [map]. now rewrite Hlo, Hhi, I2, I3.
  - intros H. unfold fm_set_tau. split; [|split].
    + rewrite Forall_map. eapply Forall_impl; [|exact H]. intros c Hc. exact (fin_step_ok c (OpTau v) Hc).
    + rewrite map_map. apply map_ext. intros c. exact (proj1 (proj2 (proj2 (fin_step_kind c (OpTau v))))).
    + rewrite map_map. apply map_ext. intros c. exact (proj2 (proj2 (proj2 (fin_step_kind c (OpTau v))))).
Qed.
Lemma fm_run_ok ops : forall cs, Forall fin_ok cs -> Forall fin_ok (fm_run cs ops) /\
  map fin_u_low (fm_run cs ops) = map fin_u_low cs /\ map fin_u_high (fm_run cs ops) = map fin_u_high cs.
Proof.
  induction ops as [|o ops IH]; intros cs H; [auto|]. destruct (fm_step_ok cs o H) as (H1 & H2 & H3).
  destruct (IH _ H1) as (I1 & I2 & I3). unfold fm_run in *. cbn [fold_left]. rewrite I2, I3, H2, H3. auto.
Qed.
Lemma fm_convert_box cs : forall i t u, Forall fin_ok cs -> snd (fm_convert cs i t) = Ok u ->
  in_box (concat (map fin_u_low cs)) (concat (map fin_u_high cs)) u.
Proof.
  induction cs as [|c cs IH]; intros i t u H E; cbn [fm_convert] in E.
  - injection E as <-. split; constructor.
  - inversion H as [|? ? Hc Hcs]; subst. pose proof (fin_convert_box c (firstn (fin_dim c) i) t) as Hb.
    destruct (fin_convert c (firstn (fin_dim c) i) t) as [c' [v|e]]; [|discriminate].
    specialize (IH (skipn (fin_dim c) i) t). destruct (fm_convert cs (skipn (fin_dim c) i) t) as [cs'' [us|e]]; [|discriminate].
    cbn in E. injection E as <-. destruct (Hb v Hc eq_refl) as [B1 B2], (IH us Hcs eq_refl) as [B3 B4].
    cbn [map concat]. split; apply Forall2_app; assumption.
Qed.
