(** Property C143: the normals of geometry/normal.h, math/general.h and geometry/space_vector.h. *)
From Coq Require Import Reals List ZArith Bool Lra Lia.
From Verif Require Import Outcome VectorModel GeometryModel SpaceVectorModel.
Import ListNotations.
Local Open Scope R_scope.

Definition vec2 (p : v2) : vec := fun i => match i with O => x2 p | 1%nat => y2 p | _ => 0 end.
Definition vec3 (p : v3) : vec := fun i => match i with O => x3 p | 1%nat => y3 p | 2%nat => z3 p | _ => 0 end.

(** In two dimensions the normal is the vector from a to b turned left by a right angle, in all three headers. *)
Theorem C143_normal2 : forall a b : v2,
  let n := geom_normal2 a b in let d := V2 (x2 b - x2 a) (y2 b - y2 a) in
  x2 n * x2 d + y2 n * y2 d = 0 /\
  x2 n * x2 n + y2 n * y2 n = x2 d * x2 d + y2 d * y2 d /\
  x2 d * y2 n - y2 d * x2 n = x2 d * x2 d + y2 d * y2 d /\
  (forall u, x2 u * x2 d + y2 u * y2 d = 0 -> x2 d * y2 u - y2 d * x2 u = x2 d * x2 d + y2 d * y2 d ->
     (x2 d <> 0 \/ y2 d <> 0) -> u = n) /\
  geom_normal2 b a = V2 (- x2 n) (- y2 n) /\
  (forall t, geom_normal2 (add2 a t) (add2 b t) = n) /\
  normal2 a b = n /\ (forall i, sv_normal2 (vec2 a) (vec2 b) i = vec2 n i).
Proof.
  intros [a1 a2] [b1 b2]. cbn. repeat split; try ring.
  - intros [u1 u2] H1 H2 Hd. cbn in *.
    assert (P : 0 < (b1 - a1) * (b1 - a1) + (b2 - a2) * (b2 - a2)).
    { destruct Hd as [H|H]; [pose proof (Rlt_0_sqr _ H); pose proof (Rle_0_sqr (b2 - a2))
                            |pose proof (Rlt_0_sqr _ H); pose proof (Rle_0_sqr (b1 - a1))]; unfold Rsqr in *; lra. }
    set (q := (b1 - a1) * (b1 - a1) + (b2 - a2) * (b2 - a2)) in *.
    assert (E1 : q * u1 = q * (a2 - b2)).
    { replace (q * u1) with ((b1 - a1) * (u1 * (b1 - a1) + u2 * (b2 - a2)) - (b2 - a2) * ((b1 - a1) * u2 - (b2 - a2) * u1))
        by (unfold q; ring). rewrite H1, H2. ring. }
    assert (E2 : q * u2 = q * (b1 - a1)).
    { replace (q * u2) with ((b2 - a2) * (u1 * (b1 - a1) + u2 * (b2 - a2)) + (b1 - a1) * ((b1 - a1) * u2 - (b2 - a2) * u1))
        by (unfold q; ring). rewrite H1, H2. ring. }
    apply Rmult_eq_reg_l in E1; [|lra]. apply Rmult_eq_reg_l in E2; [|lra]. now subst.
  - unfold geom_normal2; cbn. f_equal; ring.
  - intros [t1 t2]. unfold geom_normal2, add2; cbn. f_equal; ring.
  - intros i. unfold sv_normal2, of_args, vec2, geom_normal2; cbn. destruct i as [|[|[|i]]]; reflexivity.
Qed.
Print Assumptions C143_normal2.

(** In three dimensions it is the vector product of the two position vectors: perpendicular to both and to the line
    through the points; geometry/space_vector.h agrees. *)
Theorem C143_normal3 : forall a b : v3, let n := geom_normal3 a b in
  n = cross3 a b /\ (forall i, sv_normal3 (vec3 a) (vec3 b) i = vec3 n i) /\
  dot3 n a = 0 /\ dot3 n b = 0 /\ dot3 n (sub3 b a) = 0 /\
  dot3 n n = dot3 a a * dot3 b b - dot3 a b * dot3 a b /\
  geom_normal3 b a = V3 (- x3 n) (- y3 n) (- z3 n).
Proof.
  intros [a1 a2 a3] [b1 b2 b3]. cbn. repeat split; try (unfold dot3; cbn; ring).
  - intros i. unfold sv_normal3, of_args, vec3, geom_normal3; cbn. destruct i as [|[|[|[|i]]]]; reflexivity.
  - unfold geom_normal3; cbn. f_equal; ring.
Qed.
Print Assumptions C143_normal3.

(** But it is no property of the line: it changes when both points are moved, it is zero when the line passes through
    the origin, and the function of the same name in math/general.h throws. *)
Theorem C143_normal3_refuted :
  ~ (forall a b t, geom_normal3 (add3 a t) (add3 b t) = geom_normal3 a b) /\
  ~ (forall a b, a <> b -> geom_normal3 a b <> V3 0 0 0) /\
  ~ (forall a b : v3, normal3 a b = Ok (geom_normal3 a b)) /\
  (forall a s, geom_normal3 a (scale3 s a) = V3 0 0 0).
Proof.
  split; [|split; [|split]].
  - intros H. specialize (H (V3 0 0 0) (V3 1 0 0) (V3 0 1 0)). unfold geom_normal3, add3 in H. cbn in H.
    apply (f_equal z3) in H. cbn in H. lra.
  - intros H. apply (H (V3 1 0 0) (V3 2 0 0)).
    + intros E. apply (f_equal x3) in E. cbn in E. lra.
    + unfold geom_normal3; cbn. f_equal; ring.
  - intros H. specialize (H zero3 zero3). discriminate H.
  - intros [a1 a2 a3] s. unfold geom_normal3, scale3; cbn. f_equal; ring.
Qed.
Print Assumptions C143_normal3_refuted.
Example C143_ex : geom_normal2 (V2 1 1) (V2 4 2) = V2 (-1) 3 /\ geom_normal3 (V3 1 0 0) (V3 0 1 0) = V3 0 0 1.
Proof. unfold geom_normal2, geom_normal3; cbn; split; f_equal; lra. Qed.
