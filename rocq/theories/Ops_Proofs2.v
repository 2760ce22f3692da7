(** Lemmas about the stored tables of the operation point selection (Ops_Model2). *)
From Coq Require Import ZArith Lra Lia.
From Verif Require Import PyBaseFacts PyDictFacts Transform_Model Transform_Proofs Motor_Model Conv_Model Wrap_Model Ctl_Model Ctl_Model2 Ctl_Spec Ctl_Proofs Ctl_Proofs2 Ctl_Props Emf_Props Ops_Model Ops_Proofs Ops_Props Ops_Props2 Ops_Props3 Ops_Props4 Ops_Model2.
Local Open Scope string_scope.
Local Open Scope list_scope.
Local Open Scope R_scope.

Lemma some_inj {A} (a b : A) : Some a = Some b -> a = b.
Proof. congruence. Qed.
(** ** Interpolation *)
(** The weights of a triangulation are those of a convex combination. *)
Definition tri_ok (tri : triang) : Prop :=
  forall pts w x y ws, tri pts = Ok w -> w x y = Some ws -> length ws = length pts /\ Forall (fun a => 0 <= a) ws /\ fold_right Rplus 0 ws = 1.
Lemma dot_cons a w b v : dot (a :: w) (b :: v) = a * b + dot w v.
Proof. reflexivity. Qed.
Lemma dot_le w : forall v M, length w = length v -> Forall (fun a => 0 <= a) w -> (forall x, In x v -> x <= M) -> dot w v <= M * fold_right Rplus 0 w.
Proof.
  induction w as [|a w IH]; intros [|b v] M L F H; try discriminate; [unfold dot; cbn; lra|]. rewrite dot_cons. cbn [fold_right]. pose proof (Forall_inv F) as A. cbn in A. pose proof (IH v M ltac:(cbn in L; lia) (Forall_inv_tail F) (fun x Hx => H x (or_intror Hx))). pose proof (H b (or_introl eq_refl)). assert (a * b <= a * M) by (apply Rmult_le_compat_l; assumption). lra.
Qed.
Lemma dot_ge w : forall v M, length w = length v -> Forall (fun a => 0 <= a) w -> (forall x, In x v -> M <= x) -> M * fold_right Rplus 0 w <= dot w v.
Proof.
  induction w as [|a w IH]; intros [|b v] M L F H; try discriminate; [unfold dot; cbn; lra|]. rewrite dot_cons. cbn [fold_right]. pose proof (Forall_inv F) as A. cbn in A. pose proof (IH v M ltac:(cbn in L; lia) (Forall_inv_tail F) (fun x Hx => H x (or_intror Hx))). pose proof (H b (or_introl eq_refl)). assert (a * M <= a * b) by (apply Rmult_le_compat_l; assumption). lra.
Qed.
Lemma sum_nonneg w : Forall (fun a => 0 <= a) w -> 0 <= fold_right Rplus 0 w.
Proof. induction w as [|a w IH]; intros F; cbn; [lra|]. pose proof (Forall_inv F) as A. cbn in A. pose proof (IH (Forall_inv_tail F)). lra. Qed.
Lemma dot_lt w : forall v M, length w = length v -> Forall (fun a => 0 <= a) w -> (forall x, In x v -> x < M) -> 0 < fold_right Rplus 0 w -> dot w v < M * fold_right Rplus 0 w.
Proof.
  induction w as [|a w IH]; intros [|b v] M L F H S; try discriminate; [cbn in S; lra|]. rewrite dot_cons. cbn [fold_right] in *. pose proof (Forall_inv F) as A. cbn in A. pose proof (H b (or_introl eq_refl)) as B. assert (Lv : length w = length v) by (cbn in L; lia). assert (Hv : forall x, In x v -> x < M) by (intros x Hx; apply H; right; exact Hx).
  pose proof (sum_nonneg w (Forall_inv_tail F)) as N. destruct (Rle_lt_or_eq_dec _ _ A) as [P|Z].
  - assert (a * b < a * M) by (apply Rmult_lt_compat_l; assumption). pose proof (dot_le w v M Lv (Forall_inv_tail F) (fun x Hx => Rlt_le _ _ (Hv x Hx))). lra.
  - rewrite <- Z in *. pose proof (IH v M Lv (Forall_inv_tail F) Hv ltac:(lra)). lra.
Qed.
(** the triangle inequality in the plane *)
Lemma sq2 a c : 0 <= a * a + c * c.
Proof. pose proof (Rle_0_sqr a). pose proof (Rle_0_sqr c). unfold Rsqr in *. lra. Qed.
Lemma norm_triangle a b c d : sqrt ((a + b) * (a + b) + (c + d) * (c + d)) <= sqrt (a * a + c * c) + sqrt (b * b + d * d).
Proof.
  pose proof (sqrt_pos (a * a + c * c)) as P. pose proof (sqrt_pos (b * b + d * d)) as Q. set (u := sqrt (a * a + c * c)) in *. set (v := sqrt (b * b + d * d)) in *.
  assert (U : u * u = a * a + c * c) by (apply sqrt_sqrt, sq2). assert (V : v * v = b * b + d * d) by (apply sqrt_sqrt, sq2).
  assert (W : a * b + c * d <= u * v). { destruct (Rle_dec (a * b + c * d) 0) as [Z|Z]; [assert (0 <= u * v) by (apply Rmult_le_pos; assumption); lra|]. apply Rsqr_incr_0; [|lra|apply Rmult_le_pos; assumption]. unfold Rsqr. replace (u * v * (u * v)) with (u * u * (v * v)) by ring. rewrite U, V. pose proof (Rle_0_sqr (a * d - c * b)) as X. unfold Rsqr in X. lra. }
  rewrite <- (sqrt_square (u + v)) by lra. apply sqrt_le_1_alt. lra.
Qed.
Lemma norm_scale a b c : 0 <= a -> sqrt (a * b * (a * b) + a * c * (a * c)) = a * sqrt (b * b + c * c).
Proof. intros A. replace (a * b * (a * b) + a * c * (a * c)) with (a * a * (b * b + c * c)) by ring. rewrite sqrt_mult_alt by (pose proof (Rle_0_sqr a) as X; unfold Rsqr in X; exact X). rewrite sqrt_square by exact A. reflexivity. Qed.
Lemma norm_dot {A} (f g : A -> R) (l : list A) : forall w, length w = length l -> Forall (fun a => 0 <= a) w ->
  sqrt (dot w (map f l) * dot w (map f l) + dot w (map g l) * dot w (map g l)) <= dot w (map (fun x => sqrt (f x * f x + g x * g x)) l).
Proof.
  induction l as [|y l IH]; intros [|a w] L F; try discriminate.
  - unfold dot. cbn. rewrite Rmult_0_l, Rplus_0_l, sqrt_0. lra.
  - cbn [map]. rewrite !dot_cons. pose proof (Forall_inv F) as A0. cbn in A0. pose proof (IH w ltac:(cbn in L; lia) (Forall_inv_tail F)) as H. set (D := dot w (map f l)) in *. set (Q := dot w (map g l)) in *.
    apply Rle_trans with (sqrt (a * f y * (a * f y) + a * g y * (a * g y)) + sqrt (D * D + Q * Q)); [|rewrite norm_scale by exact A0; lra].
    apply (norm_triangle (a * f y) D (a * g y) Q).
Qed.
Lemma griddata_shape tri pts vals xs ys tab : griddata tri pts vals xs ys = Ok tab -> length tab = length xs /\ forall r, In r tab -> length r = length ys.
Proof. intros H. unfold griddata in H. apply bind_ok in H. destruct H as (w & _ & H). apply ok_inj in H. subst tab. split; [apply map_length|]. intros r Hr. apply in_map_iff in Hr. destruct Hr as (x & <- & _). apply map_length. Qed.
Lemma tab_at_ok {A} (tab : list (list A)) n k i j : length tab = n -> (forall r, In r tab -> length r = k) -> (0 <= i < Z.of_nat n)%Z -> (0 <= j < Z.of_nat k)%Z -> exists x, tab_at tab i j = Ok x.
Proof.
  intros L Lr Hi Hj. unfold tab_at. destruct (np_at_ok tab i ltac:(rewrite L; exact Hi)) as (r & E & Er). rewrite E. cbn [bind]. destruct (np_at_ok r j) as (x & Ex & _); [rewrite (Lr r (nth_error_In _ _ Er)); exact Hj|]. exists x. exact Ex.
Qed.
Lemma np_at_nth {A} (l : list A) z x : np_at l z = Ok x -> exists k, nth_error l k = Some x /\ (z = Z.of_nat k \/ z = (Z.of_nat k - Z.of_nat (length l))%Z) /\ (k < length l)%nat.
Proof.
  unfold np_at. intros H. destruct (z <? 0)%Z eqn:B.
  - destruct (Z.of_nat (length l) + z <? 0)%Z eqn:C; [discriminate|]. destruct (nth_error l (Z.to_nat (Z.of_nat (length l) + z))) as [y|] eqn:E; [|discriminate]. apply ok_inj in H. subst y. eexists. split; [exact E|]. assert ((Z.to_nat (Z.of_nat (length l) + z) < length l)%nat) by (apply nth_error_Some; rewrite E; discriminate). split; [right; lia|exact H].
  - destruct (z <? 0)%Z eqn:C; [discriminate|]. destruct (nth_error l (Z.to_nat z)) as [y|] eqn:E; [|discriminate]. apply ok_inj in H. subst y. eexists. split; [exact E|]. assert ((Z.to_nat z < length l)%nat) by (apply nth_error_Some; rewrite E; discriminate). split; [left; lia|exact H].
Qed.
(** entries of tables made from the same points at the same place use the same weights *)
Lemma griddata_at tri pts vals xs ys tab i j v : griddata tri pts vals xs ys = Ok tab -> tab_at tab i j = Ok v ->
  exists w x y, tri pts = Ok w /\ np_at xs i = Ok x /\ np_at ys j = Ok y /\ v = match w x y with None => None | Some ws => Some (dot ws vals) end.
Proof.
  intros H T. unfold griddata in H. apply bind_ok in H. destruct H as (w & E & H). apply ok_inj in H. subst tab. unfold tab_at in T. apply bind_ok in T. destruct T as (r & Tr & T).
  assert (M : forall (A B : Type) (f : A -> B) l z y, np_at (map f l) z = Ok y -> exists x, np_at l z = Ok x /\ y = f x).
  { intros A B f l z y Hy. unfold np_at in *. rewrite map_length in Hy. destruct ((if (z <? 0)%Z then Z.of_nat (length l) + z else z) <? 0)%Z; [discriminate|]. rewrite nth_error_map in Hy. destruct (nth_error l _) as [x|] eqn:Ex; [|discriminate]. cbn in Hy. apply ok_inj in Hy. exists x. split; [reflexivity|symmetry; exact Hy]. }
  destruct (M _ _ _ _ _ _ Tr) as (x & Ex & ->). destruct (M _ _ _ _ _ _ T) as (y & Ey & ->). exists w, x, y. repeat split; assumption.
Qed.

(** ** The scan of the externally excited motor *)
(** An admitted operating point: the solution of the equations at this torque, flux and
    excitation current, inside the current circle; its torque is defined. *)
Definition admitted (roots : list R -> list R) (c : econst) (lim : R) (r : erow) : Prop :=
  eesm_solve roots c (er_t r) (er_psi r) (er_e r) = Ok (er_d r, er_q r) /\ sqrt (er_d r * er_d r + er_q r * er_q r) < lim /\
  ((er_t r = 0 /\ er_e r = 0) \/ 3 * ec_p c * (ec_lm c * er_e r + (ec_ld c - ec_lq c) * er_d r) <> 0).
Lemma ee_point_admitted roots c lim t psi ie r : ee_point roots c lim t psi ie = Ok (Some r) <-> (er_t r = t /\ er_psi r = psi /\ er_e r = ie /\ admitted roots c lim r).
Proof.
  unfold ee_point, admitted. split.
  - intros H. apply bind_ok in H. destruct H as ([d q] & E & H). cbn [fst snd] in H. cbn zeta in H.
    assert (C : (t = 0 /\ ie = 0) \/ 3 * ec_p c * (ec_lm c * ie + (ec_ld c - ec_lq c) * d) <> 0 \/ Ok None = Ok (Some r)).
    { destruct (reqP t 0) as [A|A]; destruct (reqP ie 0) as [B|B]; cbn [negb andb] in H; try (left; split; assumption); right; destruct (reqP (3 * ec_p c * (ec_lm c * ie + (ec_ld c - ec_lq c) * d)) 0) as [D|D]; try (left; exact D); right; exact H. }
    destruct C as [C|[C|C]]; [| |discriminate].
    + destruct (negb (req t 0 && req ie 0) && req (3 * ec_p c * (ec_lm c * ie + (ec_ld c - ec_lq c) * d)) 0); [discriminate|]. destruct (rltP (sqrt (d * d + q * q)) lim) as [L|L]; [|discriminate]. apply ok_inj in H. assert (R : {| er_t := t; er_psi := psi; er_d := d; er_q := q; er_e := ie |} = r) by congruence. subst r. cbn. repeat split; try assumption. left. exact C.
    + destruct (negb (req t 0 && req ie 0) && req (3 * ec_p c * (ec_lm c * ie + (ec_ld c - ec_lq c) * d)) 0); [discriminate|]. destruct (rltP (sqrt (d * d + q * q)) lim) as [L|L]; [|discriminate]. apply ok_inj in H. assert (R : {| er_t := t; er_psi := psi; er_d := d; er_q := q; er_e := ie |} = r) by congruence. subst r. cbn. repeat split; try assumption. right. exact C.
  - intros (<- & <- & <- & E & L & C). rewrite E. cbn [bind fst snd]. cbn zeta. assert (B : negb (req (er_t r) 0 && req (er_e r) 0) && req (3 * ec_p c * (ec_lm c * er_e r + (ec_ld c - ec_lq c) * er_d r)) 0 = false).
    { destruct C as [[A B]|C]; [rewrite A, B; destruct (reqP 0 0) as [_|N]; [reflexivity|contradiction]|]. destruct (reqP (3 * ec_p c * (ec_lm c * er_e r + (ec_ld c - ec_lq c) * er_d r)) 0) as [D|_]; [contradiction|]. apply Bool.andb_false_r. }
    rewrite B. destruct (rltP (sqrt (er_d r * er_d r + er_q r * er_q r)) lim) as [_|N]; [|contradiction]. destruct r; reflexivity.
Qed.
Lemma somes_in {A} (l : list (option A)) x : In x (somes l) <-> In (Some x) l.
Proof.
  induction l as [|[y|] l IH]; cbn; [tauto| |]; rewrite IH.
  - split; intros [H|H]; try (right; exact H); left; congruence.
  - split; [intros H; right; exact H|intros [H|H]; [discriminate|exact H]].
Qed.
Lemma mapm_in {A B} (f : A -> res B) l r y : mapm f l = Ok r -> In y r -> exists x, In x l /\ f x = Ok y.
Proof. revert r. induction l as [|a l IH]; intros r H Hy; cbn [mapm] in H; [apply ok_inj in H; subst r; destruct Hy|]. apply bind_ok in H. destruct H as (b & E & H). apply bind_ok in H. destruct H as (bs & Es & H). apply ok_inj in H. subst r. destruct Hy as [<-|Hy]; [exists a; split; [left; reflexivity|exact E]|]. destruct (IH bs Es Hy) as (x & Hx & Ex). exists x. split; [right; exact Hx|exact Ex]. Qed.
Lemma mapm_in2 {A B} (f : A -> res B) l r x : mapm f l = Ok r -> In x l -> exists y, In y r /\ f x = Ok y.
Proof. revert r. induction l as [|a l IH]; intros r H Hx; cbn [mapm] in H; [destruct Hx|]. apply bind_ok in H. destruct H as (b & E & H). apply bind_ok in H. destruct H as (bs & Es & H). apply ok_inj in H. subst r. destruct Hx as [<-|Hx]; [exists b; split; [left; reflexivity|exact E]|]. destruct (IH bs Es Hx) as (y & Hy & Ey). exists y. split; [right; exact Hy|exact Ey]. Qed.
(** Every list of the scan holds exactly the admitted points of its torque and flux. *)
Lemma ee_scan_lists roots c lim elim pmax tlim scan : ee_scan roots c lim elim pmax tlim = Ok scan ->
  length scan = ee_t_count /\
  forall k x, nth_error scan k = Some x -> fst x = 0 + INR k * ((tlim - 0) / INR (ee_t_count - 1)) /\ length (snd x) = ee_psi_count /\
  forall j l, nth_error (snd x) j = Some l -> forall r, In r l <-> (er_t r = fst x /\ er_psi r = 0 + INR j * ((pmax - 0) / INR (ee_psi_count - 1)) /\ In (er_e r) (linspace 0 elim ee_i_count) /\ admitted roots c lim r).
Proof.
  intros H. unfold ee_scan in H. destruct (mapm_spec _ _ _ H) as [L S]. rewrite linspace_length in L. split; [exact L|]. intros k x Hx. assert (Kk : (k < ee_t_count)%nat) by (rewrite <- L; apply nth_error_Some; rewrite Hx; discriminate).
  destruct (S k _ (linspace_nth 0 tlim ee_t_count k Kk)) as (y & Ey & Ny). rewrite Hx in Ny. apply some_inj in Ny. subst y. apply bind_ok in Ey. destruct Ey as (ls & El & Ey). apply ok_inj in Ey. subst x. cbn [fst snd]. split; [reflexivity|]. destruct (mapm_spec _ _ _ El) as [L2 S2]. rewrite linspace_length in L2. split; [exact L2|].
  intros j l Hl r. assert (Kj : (j < ee_psi_count)%nat) by (rewrite <- L2; apply nth_error_Some; rewrite Hl; discriminate). destruct (S2 j _ (linspace_nth 0 pmax ee_psi_count j Kj)) as (y & Ey & Ny). rewrite Hl in Ny. apply some_inj in Ny. subst y. apply bind_ok in Ey. destruct Ey as (rs & Er & Ey). apply ok_inj in Ey. subst l. rewrite somes_in. split.
  - intros Hr. destruct (mapm_in _ _ _ _ Er Hr) as (ie & Hi & E). apply ee_point_admitted in E. destruct E as (A & B & C & D). rewrite C. repeat split; try assumption; try (rewrite B; reflexivity); apply D.
  - intros (A & B & C & D). destruct (mapm_in2 _ _ _ _ Er C) as (y & Hy & E). assert (X : ee_point roots c lim (er_t r) (er_psi r) (er_e r) = Ok (Some r)) by (apply ee_point_admitted; repeat split; apply D). rewrite A, B in X. rewrite X in E. apply ok_inj in E. subst y. exact Hy.
Qed.
Lemma ee_best_spec rs re l r : In r (ee_best rs re l) -> In r l /\ forall x, In x l -> ee_loss rs re (er_d r) (er_q r) (er_e r) <= ee_loss rs re (er_d x) (er_q x) (er_e x).
Proof.
  unfold ee_best. destruct l as [|a l]; [intros []|]. set (f := fun r => ee_loss rs re (er_d r) (er_q r) (er_e r)). destruct (argmin_spec (map f (a :: l))) as (k & v & E & N & M); [discriminate|]. rewrite E. rewrite nth_error_map in N. destruct (nth_error (a :: l) k) as [y|] eqn:Ey; [|discriminate]. cbn [option_map] in N. apply some_inj in N. intros [<-|[]]. split; [eapply nth_error_In; exact Ey|]. intros x Hx. fold (f y) (f x). rewrite N. apply M, in_map, Hx.
Qed.
Lemma ee_best_some rs re l : l <> [] -> exists r, ee_best rs re l = [r].
Proof. intros H. unfold ee_best. destruct (argmin_spec (map (fun r => ee_loss rs re (er_d r) (er_q r) (er_e r)) l)) as (k & v & E & N & _); [intros Z; apply map_eq_nil in Z; contradiction|]. rewrite E. rewrite nth_error_map in N. destruct (nth_error l k) as [y|]; [|discriminate]. exists y. reflexivity. Qed.
