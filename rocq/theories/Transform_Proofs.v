From Verif Require Import PyBase PyBaseFacts Transform_Model Transform_Spec.

Lemma sqrt3 : sqrt 3 * sqrt 3 = 3.
Proof. apply sqrt_sqrt. lra. Qed.
Lemma sincos x : sin x * sin x + cos x * cos x = 1.
Proof. pose proof (sin2_cos2 x) as H. unfold Rsqr in H. exact H. Qed.

Lemma t_23_val a b c : t_23 [a; b; c] = Ok [2 / 3 * (a - b / 2 - c / 2); sqrt 3 / 3 * (b - c)].
Proof. unfold t_23, matvec, t23_matrix. cbn [forallb length Nat.eqb andb map dot]. f_equal. f_equal; [field|f_equal; field]. Qed.
Lemma t_32_val x y : t_32 [x; y] = Ok [x; - x / 2 + sqrt 3 / 2 * y; - x / 2 - sqrt 3 / 2 * y].
Proof. unfold t_32, matvec, t32_matrix. cbn [forallb length Nat.eqb andb map dot]. f_equal. f_equal; [ring|]. f_equal; [field|]. f_equal; field. Qed.
Lemma q_val x y e : q [x; y] e = Ok [cos e * x - sin e * y; sin e * x + cos e * y].
Proof. reflexivity. Qed.
Lemma q_inv_val x y e : q_inv [x; y] e = Ok [cos e * x + sin e * y; cos e * y - sin e * x].
Proof. unfold q_inv. rewrite q_val, cos_neg, sin_neg. f_equal. f_equal; [ring|f_equal; ring]. Qed.

Lemma len2 (l : list R) : length l = 2%nat -> exists x y, l = [x; y].
Proof. destruct l as [|x [|y [|z l]]]; try discriminate. intros _. now exists x, y. Qed.
Lemma len3 (l : list R) : length l = 3%nat -> exists x y z, l = [x; y; z].
Proof. destruct l as [|x [|y [|z [|w l]]]]; try discriminate. intros _. now exists x, y, z. Qed.

Lemma cos_pi3 : cos (2 * PI / 3) = - (1 / 2).
Proof. replace (2 * PI / 3) with (2 * (PI / 3)) by field. rewrite cos_2PI3. field. Qed.
Lemma sin_pi3 : sin (2 * PI / 3) = sqrt 3 / 2.
Proof. replace (2 * PI / 3) with (2 * (PI / 3)) by field. rewrite sin_2PI3. field. Qed.
Lemma cos_4pi3 : cos (4 * PI / 3) = - (1 / 2).
Proof.
  replace (4 * PI / 3) with (PI / 3 + PI) by field. rewrite neg_cos, cos_PI3. reflexivity.
Qed.
Lemma sin_4pi3 : sin (4 * PI / 3) = - (sqrt 3 / 2).
Proof. replace (4 * PI / 3) with (PI / 3 + PI) by field. rewrite neg_sin, sin_PI3. reflexivity. Qed.
