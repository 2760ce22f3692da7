(** Property C33: Clarke and Park transformations. *)
From Verif Require Import PyBase PyBaseFacts Transform_Model Transform_Spec Transform_Proofs.

(** alpha-beta to abc and back is the identity, for every input. *)
Theorem clarke_left_inverse :
  forall ab, length ab = 2%nat -> exists abc, t_32 ab = Ok abc /\ length abc = 3%nat /\ rsum abc = 0 /\ t_23 abc = Ok ab.
Proof.
  intros ab H. destruct (len2 ab H) as [x [y ->]]. rewrite t_32_val. eexists. split; [reflexivity|]. split; [reflexivity|].
  split; [cbn [rsum]; field|]. rewrite t_23_val. f_equal. f_equal; [field|]. f_equal.
  replace (sqrt 3 / 3 * (- x / 2 + sqrt 3 / 2 * y - (- x / 2 - sqrt 3 / 2 * y))) with (sqrt 3 * sqrt 3 / 3 * y) by field.
  rewrite sqrt3. field.
Qed.
Print Assumptions clarke_left_inverse.

(** abc to alpha-beta and back removes the common mode and nothing else; it is the
    identity exactly on quantities whose phases sum to zero. *)
Theorem clarke_removes_common_mode :
  forall abc, length abc = 3%nat ->
  exists ab abc', t_23 abc = Ok ab /\ length ab = 2%nat /\ t_32 ab = Ok abc' /\
    abc' = map (fun x => x - rsum abc / 3) abc /\ (abc' = abc <-> rsum abc = 0).
Proof.
  intros abc H. destruct (len3 abc H) as [a [b [c ->]]]. rewrite t_23_val. eexists. eexists. split; [reflexivity|].
  split; [reflexivity|]. rewrite t_32_val. split; [reflexivity|]. cbn [rsum map].
  assert (E : forall s, sqrt 3 / 2 * (sqrt 3 / 3 * s) = s / 2).
  { intros s. replace (sqrt 3 / 2 * (sqrt 3 / 3 * s)) with (sqrt 3 * sqrt 3 / 6 * s) by field. rewrite sqrt3. field. }
  rewrite !E. split.
  - f_equal; [field|]. f_equal; [field|]. f_equal. field.
  - split; intros K.
    + injection K. intros _ _ K1. lra.
    + f_equal; [lra|]. f_equal; [lra|]. f_equal. lra.
Qed.
Print Assumptions clarke_removes_common_mode.

(** Vectors of any other length are refused. *)
Theorem clarke_refuses_other_lengths :
  forall x, (t_23 x = Err ValueError <-> length x <> 3%nat) /\ (t_32 x = Err ValueError <-> length x <> 2%nat).
Proof.
  intros x. unfold t_23, t_32, matvec, t23_matrix, t32_matrix. cbn [forallb length]. split.
  - destruct (Nat.eqb_spec 3 (length x)) as [E|E]; cbn [andb]; split; intros H; congruence.
  - destruct (Nat.eqb_spec 2 (length x)) as [E|E]; cbn [andb]; split; intros H; congruence.
Qed.
Print Assumptions clarke_refuses_other_lengths.

(** Rotations: inverse to each other, additive in the angle, periodic, and they keep the length. *)
Theorem park_is_rotation :
  forall x, length x = 2%nat -> forall e,
  exists y, q x e = Ok y /\ length y = 2%nat /\ norm2 y = norm2 x /\ q_inv y e = Ok x /\
    (forall e', q y e' = q x (e + e')) /\ (forall n : nat, q x (e + 2 * INR n * PI) = Ok y) /\
    (exists z, q_inv x e = Ok z /\ length z = 2%nat /\ norm2 z = norm2 x /\ q z e = Ok x).
Proof.
  intros x H e. destruct (len2 x H) as [a [b ->]]. pose proof (sincos e) as S. rewrite q_val. eexists. split; [reflexivity|].
  split; [reflexivity|]. split.
  { unfold norm2. cbn [map rsum].
    replace ((cos e * a - sin e * b) * (cos e * a - sin e * b) + ((sin e * a + cos e * b) * (sin e * a + cos e * b) + 0))
      with ((sin e * sin e + cos e * cos e) * (a * a + b * b)) by ring. rewrite S. ring. }
  split.
  { rewrite q_inv_val. f_equal. f_equal.
    - transitivity ((sin e * sin e + cos e * cos e) * a); [ring|rewrite S; ring].
    - f_equal. transitivity ((sin e * sin e + cos e * cos e) * b); [ring|rewrite S; ring]. }
  split.
  { intros e'. rewrite !q_val, cos_plus, sin_plus. f_equal. f_equal; [ring|]. f_equal. ring. }
  split.
  { intros n. rewrite q_val, cos_period, sin_period. reflexivity. }
  rewrite q_inv_val. eexists. split; [reflexivity|]. split; [reflexivity|]. split.
  { unfold norm2. cbn [map rsum].
    replace ((cos e * a + sin e * b) * (cos e * a + sin e * b) + ((cos e * b - sin e * a) * (cos e * b - sin e * a) + 0))
      with ((sin e * sin e + cos e * cos e) * (a * a + b * b)) by ring. rewrite S. ring. }
  rewrite q_val. f_equal. f_equal.
  - transitivity ((sin e * sin e + cos e * cos e) * a); [ring|rewrite S; ring].
  - f_equal. transitivity ((sin e * sin e + cos e * cos e) * b); [ring|rewrite S; ring].
Qed.
Print Assumptions park_is_rotation.

(** With the mechanical angle: rotation by p times the angle, and its inverse. *)
Theorem park_mechanical_angle :
  forall p x e, length x = 2%nat ->
  exists y, q_me p x e = Ok y /\ q_inv_me p y e = Ok x /\ q_me p x e = q x (p * e).
Proof.
  intros p x e H. unfold q_me, q_inv_me, q_me. destruct (park_is_rotation x H (e * p)) as [y [E1 [_ [_ [E2 _]]]]].
  exists y. split; [exact E1|]. split; [|now rewrite (Rmult_comm p e)].
  unfold q_inv in E2. replace (- e * p) with (- (e * p)) by ring. exact E2.
Qed.
Print Assumptions park_mechanical_angle.

(** dq to abc and back is the identity, for plain and for normalised angles. *)
Theorem dq_abc_roundtrip :
  forall dq e normed, length dq = 2%nat ->
  exists abc, dq_to_abc dq e normed = Ok abc /\ length abc = 3%nat /\ rsum abc = 0 /\ abc_to_dq abc e normed = Ok dq.
Proof.
  intros dq e nm H. unfold dq_to_abc, abc_to_dq. destruct (park_is_rotation dq H (el_angle e nm)) as [ab [E1 [L1 [_ [E2 _]]]]].
  rewrite E1. cbn [bind]. destruct (clarke_left_inverse ab L1) as [abc [E3 [L3 [Z E4]]]].
  exists abc. rewrite E3, E4. cbn [bind]. now rewrite E2.
Qed.
Print Assumptions dq_abc_roundtrip.

Theorem abc_dq_roundtrip :
  forall abc e normed, length abc = 3%nat ->
  exists dq, abc_to_dq abc e normed = Ok dq /\ length dq = 2%nat /\
    dq_to_abc dq e normed = Ok (map (fun x => x - rsum abc / 3) abc).
Proof.
  intros abc e nm H. unfold dq_to_abc, abc_to_dq.
  destruct (clarke_removes_common_mode abc H) as [ab [abc' [E1 [L [E2 [E3 _]]]]]]. rewrite E1. cbn [bind].
  destruct (park_is_rotation ab L (el_angle e nm)) as [_ [_ [_ [_ [_ [_ [_ [z [F1 [F2 [_ F4]]]]]]]]]]].
  exists z. split; [exact F1|]. split; [exact F2|]. rewrite F4. cbn [bind]. rewrite E2, E3. reflexivity.
Qed.
Print Assumptions abc_dq_roundtrip.

(** The alpha-beta/dq pair is the rotation itself. *)
Theorem alphabeta_dq_roundtrip :
  forall x e normed, length x = 2%nat ->
  exists y, alphabeta_to_dq x e normed = Ok y /\ dq_to_alphabeta y e normed = Ok x.
Proof.
  intros x e nm H. unfold alphabeta_to_dq, dq_to_alphabeta.
  destruct (park_is_rotation x H (el_angle e nm)) as [_ [_ [_ [_ [_ [_ [_ [z [F1 [_ [_ F4]]]]]]]]]]]. now exists z.
Qed.
Print Assumptions alphabeta_dq_roundtrip.

(** Instantaneous power: for all voltages and currents the sum over the phases is
    3/2 of the dq product plus the common mode product; the common mode vanishes as
    soon as the currents sum to zero. *)
Theorem power_in_dq :
  forall u i e normed, length u = 3%nat -> length i = 3%nat ->
  exists udq idq, abc_to_dq u e normed = Ok udq /\ abc_to_dq i e normed = Ok idq /\
    power u i = 3 / 2 * power udq idq + rsum u * rsum i / 3.
Proof.
  intros u i e nm Hu Hi. destruct (len3 u Hu) as [a [b [c ->]]]. destruct (len3 i Hi) as [a' [b' [c' ->]]].
  unfold abc_to_dq. rewrite !t_23_val. cbn [bind]. rewrite !q_inv_val. eexists. eexists. split; [reflexivity|]. split; [reflexivity|].
  cbn [power rsum]. pose proof (sincos (el_angle e nm)) as S. set (s := sin (el_angle e nm)) in *. set (k := cos (el_angle e nm)) in *.
  set (x := 2 / 3 * (a - b / 2 - c / 2)). set (y := sqrt 3 / 3 * (b - c)).
  set (x' := 2 / 3 * (a' - b' / 2 - c' / 2)). set (y' := sqrt 3 / 3 * (b' - c')).
  replace ((k * x + s * y) * (k * x' + s * y') + ((k * y - s * x) * (k * y' - s * x') + 0))
    with ((s * s + k * k) * (x * x' + y * y')) by ring.
  rewrite S. replace (y * y') with (sqrt 3 * sqrt 3 / 9 * ((b - c) * (b' - c'))) by (unfold y, y'; field).
  rewrite sqrt3. unfold x, x'. field.
Qed.
Print Assumptions power_in_dq.

(** Amplitude invariance: a balanced phase system with amplitude a and an angle
    that leads the rotor by th has dq components (a cos th, a sin th). *)
Theorem balanced_in_dq :
  forall a th e, abc_to_dq (balanced a (e + th)) e false = Ok [a * cos th; a * sin th] /\
                 dq_to_abc [a * cos th; a * sin th] e false = Ok (balanced a (e + th)).
Proof.
  intros a th e. assert (E : dq_to_abc [a * cos th; a * sin th] e false = Ok (balanced a (e + th))).
  { unfold dq_to_abc, el_angle. rewrite q_val. cbn [bind]. rewrite t_32_val. unfold balanced.
    rewrite !cos_minus, cos_pi3, sin_pi3, cos_4pi3, sin_4pi3, cos_plus, sin_plus. f_equal.
    f_equal; [ring|]. f_equal; [field|]. f_equal. field. }
  split; [|exact E].
  destruct (dq_abc_roundtrip [a * cos th; a * sin th] e false eq_refl) as [abc [E1 [_ [_ E2]]]].
  rewrite E in E1. injection E1. intros <-. exact E2.
Qed.
Print Assumptions balanced_in_dq.

Example transform_nonvacuous :
  t_23 [1; 0; -1] = Ok [1; sqrt 3 / 3] /\ power [1; 0; -1] [2; -1; -1] = 3.
Proof. rewrite t_23_val. split; [f_equal; f_equal; [field|f_equal; field]|cbn; ring]. Qed.

(** ** C110: normalised angles *)
(** With [normed_epsilon] an angle is given in multiples of pi: a normalised angle of
    e / pi is the angle e, and two normalised angles differing by 2 k are the same. *)
Theorem normalised_angle :
  forall x e k,
  abc_to_dq x (e / PI) true = abc_to_dq x e false /\ dq_to_abc x (e / PI) true = dq_to_abc x e false /\
  alphabeta_to_dq x (e / PI) true = alphabeta_to_dq x e false /\ dq_to_alphabeta x (e / PI) true = dq_to_alphabeta x e false /\
  dq_to_abc x (e + 2 * INR k) true = dq_to_abc x e true.
Proof.
  intros x e k. pose proof PI_RGT_0 as HP. assert (E : e / PI * PI = e) by (field; lra).
  unfold abc_to_dq, dq_to_abc, alphabeta_to_dq, dq_to_alphabeta, el_angle. rewrite E. repeat split.
  unfold q. replace ((e + 2 * INR k) * PI) with (e * PI + 2 * INR k * PI) by ring. now rewrite cos_period, sin_period.
Qed.
Print Assumptions normalised_angle.
Example normalised_angle_example : dq_to_abc [1; 0] 1 true = Ok [-1; 1 / 2; 1 / 2].
Proof.
  unfold dq_to_abc, el_angle, q. cbn [item nth_error bind]. replace (1 * PI) with PI by ring. rewrite cos_PI, sin_PI. cbn. f_equal. f_equal; [lra|f_equal; [lra|f_equal; lra]].
Qed.
