(** Every rotation is a product of rotations about coordinate axes; the others are such a product after an inversion. *)
From Verif Require Import Base Num NumR Spec.Rotation Model.Neighbor Proofs.Rotation.
From Coq Require Import Reals Lra Ring.
Local Open Scope R_scope.

Lemma angle p q : p * p + q * q = 1 -> exists s, cos s = p /\ sin s = q.
Proof.
  intros H. assert (Hp : -1 <= p <= 1) by nra. pose proof (cos_acos p Hp) as C. pose proof (acos_bound p) as Bd.
  pose proof (sin2_cos2 (acos p)) as Q. unfold Rsqr in Q. rewrite C in Q. assert (Sg : 0 <= sin (acos p)) by (apply sin_ge_0; lra).
  destruct (Rle_lt_dec 0 q) as [L|L].
  - exists (acos p). split; [exact C|]. nra.
  - exists (- acos p). rewrite cos_neg, sin_neg. split; [exact C|]. nra.
Qed.
Definition cross (a b : v3 R) : v3 R := V3 (vy a * vz b - vz a * vy b) (vz a * vx b - vx a * vz b) (vx a * vy b - vy a * vx b).
Lemma v3_eq (u v : v3 R) : vx u = vx v -> vy u = vy v -> vz u = vz v -> u = v.
Proof. destruct u, v; cbn. now intros -> -> ->. Qed.
Lemma third a b c : orthonormal a b c -> c = cross a b \/ c = vneg (cross a b).
Proof.
  intros [Haa [Hbb [Hcc [Hab [Hac Hbc]]]]]. destruct a as [a1 a2 a3], b as [b1 b2 b3], c as [c1 c2 c3]. unfold vdot in *. cbn [vx vy vz nadd nmul R_num] in *.
  set (e1 := a2 * b3 - a3 * b2). set (e2 := a3 * b1 - a1 * b3). set (e3 := a1 * b2 - a2 * b1).
  assert (E : e1 * e1 + e2 * e2 + e3 * e3 = 1).
  { transitivity ((a1 * a1 + a2 * a2 + a3 * a3) * (b1 * b1 + b2 * b2 + b3 * b3) - (a1 * b1 + a2 * b2 + a3 * b3) * (a1 * b1 + a2 * b2 + a3 * b3)); [unfold e1, e2, e3; ring|]. rewrite Haa, Hbb, Hab. ring. }
  assert (X1 : c2 * e3 - c3 * e2 = 0) by (transitivity (a1 * (b1 * c1 + b2 * c2 + b3 * c3) - b1 * (a1 * c1 + a2 * c2 + a3 * c3)); [unfold e2, e3; ring|rewrite Hac, Hbc; ring]).
  assert (X2 : c3 * e1 - c1 * e3 = 0) by (transitivity (a2 * (b1 * c1 + b2 * c2 + b3 * c3) - b2 * (a1 * c1 + a2 * c2 + a3 * c3)); [unfold e1, e3; ring|rewrite Hac, Hbc; ring]).
  assert (X3 : c1 * e2 - c2 * e1 = 0) by (transitivity (a3 * (b1 * c1 + b2 * c2 + b3 * c3) - b3 * (a1 * c1 + a2 * c2 + a3 * c3)); [unfold e2, e1; ring|rewrite Hac, Hbc; ring]).
  set (k := c1 * e1 + c2 * e2 + c3 * e3).
  assert (K1 : c1 = k * e1).
  { transitivity ((e1 * e1 + e2 * e2 + e3 * e3) * c1); [rewrite E; ring|]. transitivity (k * e1 + e2 * (c1 * e2 - c2 * e1) - e3 * (c3 * e1 - c1 * e3)); [unfold k; ring|rewrite X2, X3; ring]. }
  assert (K2 : c2 = k * e2).
  { transitivity ((e1 * e1 + e2 * e2 + e3 * e3) * c2); [rewrite E; ring|]. transitivity (k * e2 + e3 * (c2 * e3 - c3 * e2) - e1 * (c1 * e2 - c2 * e1)); [unfold k; ring|rewrite X1, X3; ring]. }
  assert (K3 : c3 = k * e3).
  { transitivity ((e1 * e1 + e2 * e2 + e3 * e3) * c3); [rewrite E; ring|]. transitivity (k * e3 + e1 * (c3 * e1 - c1 * e3) - e2 * (c2 * e3 - c3 * e2)); [unfold k; ring|rewrite X1, X2; ring]. }
  clearbody k. assert (Kk : k * k = 1).
  { transitivity (k * k * (e1 * e1 + e2 * e2 + e3 * e3)); [rewrite E; ring|]. rewrite <- Hcc. rewrite K1, K2, K3. ring. }
  assert (Kd : k = 1 \/ k = -1).
  { destruct (Rtotal_order k 0) as [L|[L|L]]; [right; nra|nra|left; nra]. }
  destruct Kd as [-> | -> ]; [left|right]; apply v3_eq; unfold vneg, cross; cbn [vx vy vz nopp R_num]; fold e1 e2 e3; lra.
Qed.
Theorem proper a b c : orthonormal a b c -> c = cross a b -> exists s1 s2 s3, forall d, image a b c d = turn 2 s1 (turn 1 s2 (turn 2 s3 d)).
Proof.
  intros [Haa [Hbb [Hcc [Hab [Hac Hbc]]]]] Ec.
  assert (Eb : b = cross c a).
  { rewrite Ec. unfold vdot in *. destruct a as [a1 a2 a3], b as [b1 b2 b3]. cbn [vx vy vz nadd nmul R_num] in *. apply v3_eq; unfold cross; cbn [vx vy vz].
    - transitivity ((a1 * a1 + a2 * a2 + a3 * a3) * b1 - (a1 * b1 + a2 * b2 + a3 * b3) * a1); [rewrite Haa, Hab; ring|ring].
    - transitivity ((a1 * a1 + a2 * a2 + a3 * a3) * b2 - (a1 * b1 + a2 * b2 + a3 * b3) * a2); [rewrite Haa, Hab; ring|ring].
    - transitivity ((a1 * a1 + a2 * a2 + a3 * a3) * b3 - (a1 * b1 + a2 * b2 + a3 * b3) * a3); [rewrite Haa, Hab; ring|ring]. }
  clear Ec Hbb Hab Hbc. subst b. destruct c as [x y z]. unfold vdot in Hcc. cbn [vx vy vz nadd nmul R_num] in Hcc.
  pose proof (Rle_0_sqr x) as X0. pose proof (Rle_0_sqr y) as Y0. unfold Rsqr in X0, Y0.
  set (rho := sqrt (x * x + y * y)). assert (R2 : rho * rho = x * x + y * y) by (apply sqrt_sqrt; lra).
  destruct (angle z rho ltac:(lra)) as [s2 [C2 S2]].
  assert (A1 : exists s1, rho * cos s1 = x /\ rho * sin s1 = y).
  { destruct (Req_EM_T rho 0) as [Z|Z].
    - exists 0. rewrite Z. rewrite Z in R2. assert (x = 0) by nra. assert (y = 0) by nra. subst. split; ring.
    - destruct (angle (x / rho) (y / rho)) as [s1 [C1 S1]].
      + transitivity ((x * x + y * y) / (rho * rho)); [field; exact Z|]. rewrite <- R2. field. exact Z.
      + exists s1. rewrite C1, S1. split; field; exact Z. }
  destruct A1 as [s1 [C1 S1]]. clearbody rho. clear R2 X0 Y0.
  destruct a as [a1 a2 a3]. unfold vdot in *. cbn [vx vy vz nadd nmul R_num] in *.
  pose proof (sin2_cos2 s1) as Q1. pose proof (sin2_cos2 s2) as Q2. unfold Rsqr in Q1, Q2.
  set (c1 := cos s1) in *. set (n1 := sin s1) in *. set (c2 := cos s2) in *. set (n2 := sin s2) in *. subst x y z. rewrite <- S2 in *. clear S2 rho Hcc.
  assert (Q1' : n1 * n1 = 1 - c1 * c1) by lra. assert (Q2' : n2 * n2 = 1 - c2 * c2) by lra.
  set (p := a1 * (c1 * c2) + a2 * (n1 * c2) - a3 * n2). set (q := a2 * c1 - a1 * n1).
  set (g := a1 * (n2 * c1) + a2 * (n2 * n1) + a3 * c2) in *.
  assert (E1 : a1 = p * (c1 * c2) - q * n1 + g * (n2 * c1)) by (unfold p, q, g; ring [Q1' Q2']).
  assert (E2 : a2 = p * (n1 * c2) + q * c1 + g * (n2 * n1)) by (unfold p, q, g; ring [Q1' Q2']).
  assert (E3 : a3 = - p * n2 + g * c2) by (unfold p, q, g; ring [Q1' Q2']).
  assert (Pq : p * p + q * q = 1).
  { rewrite <- Haa. transitivity (a1 * a1 + a2 * a2 + a3 * a3 - g * g); [unfold p, q, g; ring [Q1' Q2']|rewrite Hac; ring]. }
  clearbody p q g. subst g. destruct (angle p q Pq) as [s3 [C3 S3]]. exists s1, s2, s3. intros d.
  unfold image, turn, cross. cbn [vx vy vz]. fold c1 n1 c2 n2. rewrite C3, S3. rewrite E1, E2, E3. clearbody c1 n1 c2 n2. clear - Q1' Q2'.
  apply v3_eq; cbn [vx vy vz]; ring [Q1' Q2'].
Qed.
Theorem euler a b c : orthonormal a b c -> exists s1 s2 s3, (forall d, image a b c d = turn 2 s1 (turn 1 s2 (turn 2 s3 d))) \/ (forall d, image a b c d = turn 2 s1 (turn 1 s2 (turn 2 s3 (vneg d)))).
Proof.
  intros H. destruct (third a b c H) as [E|E].
  - destruct (proper a b c H E) as [s1 [s2 [s3 P]]]. exists s1, s2, s3. now left.
  - destruct (proper (vneg a) (vneg b) (vneg c)) as [s1 [s2 [s3 P]]].
    + destruct H as [Haa [Hbb [Hcc [Hab [Hac Hbc]]]]]. unfold orthonormal, vdot, vneg in *. cbn [vx vy vz nopp nadd nmul R_num] in *. repeat split; rewrite <- ?Haa, <- ?Hbb, <- ?Hcc, <- ?Hab, <- ?Hac, <- ?Hbc; try ring; lra.
    + rewrite E. unfold vneg, cross. cbn [vx vy vz nopp R_num]. f_equal; ring.
    + exists s1, s2, s3. right. intros d. rewrite <- P. unfold image, vneg. cbn [vx vy vz nopp R_num]. f_equal; ring.
Qed.
