(** Rounding errors and exactness of the three-dimensional shapes, determinants and midpoints in floating-point arithmetic.

    Statements are about [FR x], the real number that a finite float stands for, and exact real formulas written out here. *)
From Coq Require Import ZArith List Bool Lia Reals Lra Psatz.
From Verif Require Import FloatModel FloatShapeModel FloatRound FloatProofs FloatProps FloatGeomProps FloatExpr.
From Coq Require Import SpecFloat.
Import ListNotations.
Local Open Scope R_scope.

Definition coords (p : p3) : list spec_float := [cx p; cy p; cz p].
(** the determinant of the rows a, b, c *)
Definition det_rows (ax ay az bx by_ bz cx cy cz : R) : R := ax * (by_ * cz - bz * cy) - ay * (bx * cz - bz * cx) + az * (bx * cy - by_ * cx).
Definition tripleR (a b c : p3) : R := det_rows (FR (cx a)) (FR (cy a)) (FR (cz a)) (FR (cx b)) (FR (cy b)) (FR (cz b)) (FR (cx c)) (FR (cy c)) (FR (cz c)).
(** six times the signed volume: the determinant of the edges from the first point *)
Definition tetR (p q r s : p3) : R :=
  let d f a := FR (f a) - FR (f p) in
  det_rows (d cx q) (d cy q) (d cz q) (d cx r) (d cy r) (d cz r) (d cx s) (d cy s) (d cz s).
(** the volume of a hexahedron by three determinants *)
Definition hexR (p0 p1 p2 p3 p4 p5 p6 p7 : p3) : R :=
  let d f a b := FR (f a) - FR (f b) in
  let s f a b c e := d f a b + d f c e in
  (Rabs (det_rows (s cx p6 p1 p7 p0) (s cy p6 p1 p7 p0) (s cz p6 p1 p7 p0) (d cx p6 p3) (d cy p6 p3) (d cz p6 p3) (d cx p2 p0) (d cy p2 p0) (d cz p2 p0)) +
   Rabs (det_rows (d cx p7 p0) (d cy p7 p0) (d cz p7 p0) (s cx p6 p3 p5 p0) (s cy p6 p3 p5 p0) (s cz p6 p3 p5 p0) (d cx p6 p4) (d cy p6 p4) (d cz p6 p4)) +
   Rabs (det_rows (d cx p6 p1) (d cy p6 p1) (d cz p6 p1) (d cx p5 p0) (d cy p5 p0) (d cz p5 p0) (s cx p6 p4 p2 p0) (s cy p6 p4 p2 p0) (s cz p6 p4 p2 p0))) / 12.

Lemma env_Forall (P : spec_float -> Prop) l : Forall P l -> P f0 -> forall i, P (nth i l f0).
Proof. intros H H0. induction H as [|x l Px _ IH]; intros [|i]; cbn [nth]; auto. Qed.
Lemma env_number prec emax l : numbers prec emax l -> forall i, number prec emax (nth i l f0).
Proof. intros H. apply env_Forall; [exact H|reflexivity]. Qed.
Lemma env_bound M l : 1 <= M -> Forall (fun x => Rabs (FR x) <= M) l -> forall i, Rabs (FR (nth i l f0)) <= M.
Proof. intros HM H. apply (env_Forall (fun x => Rabs (FR x) <= M)); [exact H|cbn [FR f0]; rewrite Rabs_R0; lra]. Qed.
Lemma env_fin l : Forall (fun x => fin x = true) l -> forall i, fin (nth i l f0) = true.
Proof. intros H. apply (env_Forall (fun x => fin x = true)); [exact H|reflexivity]. Qed.
Lemma env_whole l : Forall (fun x => fin x = true /\ whole (FR x)) l -> forall i, fin (nth i l f0) = true /\ whole (FR (nth i l f0)).
Proof. intros H. apply (env_Forall (fun x => fin x = true /\ whole (FR x))); [exact H|split; [reflexivity|exists 0%Z; reflexivity]]. Qed.

(** the formulas *)
Definition e3 (i j k : nat) : expr := EMul (EMul (EVar i) (EVar j)) (EVar k).
Definition etriple_of (ax ay az bx by_ bz cx cy cz : expr) : expr :=
  let m a b c := EMul (EMul a b) c in
  ESub (ESub (ESub (EAdd (EAdd (m ax by_ cz) (m bx cy az)) (m cx ay bz)) (m az by_ cx)) (m bz cy ax)) (m cz ay bx).
Definition etriple : expr := etriple_of (EVar 0) (EVar 1) (EVar 2) (EVar 3) (EVar 4) (EVar 5) (EVar 6) (EVar 7) (EVar 8).
Definition edet3 : expr :=
  ESub (ESub (ESub (EAdd (EAdd (e3 0 4 8) (e3 1 5 6)) (e3 2 3 7)) (e3 6 4 2)) (e3 7 5 0)) (e3 8 3 1).
Definition etet_det : expr := (
  let t x y z := e3 (3 * x) (3 * y + 1) (3 * z + 2) in
  let p a b := EAdd a b in let m a b := ESub a b in
  p (m (m (p (p (m (m (p (p (m (m (p (p (m (m (p (p (m (m (p (p (m (m (t 3 2 1) (t 2 3 1)) (t 3 1 2)) (t 1 3 2)) (t 2 1 3)) (t 1 2 3))
   (t 3 2 0)) (t 2 3 0)) (t 3 0 2)) (t 0 3 2)) (t 2 0 3)) (t 0 2 3)) (t 3 1 0)) (t 1 3 0)) (t 3 0 1)) (t 0 3 1)) (t 1 0 3)) (t 0 1 3))
   (t 2 1 0)) (t 1 2 0)) (t 2 0 1)) (t 0 2 1)) (t 1 0 2)) (t 0 1 2))%nat.
Definition etet : expr := EDiv (EAbs etet_det) 6.
Definition ehex : expr := (
  let d f a b := ESub (EVar (3 * a + f)) (EVar (3 * b + f)) in
  let s f a b c e := EAdd (d f a b) (d f c e) in
  EDiv (EAdd (EAdd
   (EAbs (etriple_of (s 0 6 1 7 0) (s 1 6 1 7 0) (s 2 6 1 7 0) (d 0 6 3) (d 1 6 3) (d 2 6 3) (d 0 2 0) (d 1 2 0) (d 2 2 0)))
   (EAbs (etriple_of (d 0 7 0) (d 1 7 0) (d 2 7 0) (s 0 6 3 5 0) (s 1 6 3 5 0) (s 2 6 3 5 0) (d 0 6 4) (d 1 6 4) (d 2 6 4))))
   (EAbs (etriple_of (d 0 6 1) (d 1 6 1) (d 2 6 1) (d 0 5 0) (d 1 5 0) (d 2 5 0) (s 0 6 4 2 0) (s 1 6 4 2 0) (s 2 6 4 2 0)))) 12)%nat.

Section Steps.
Variables (prec emax : Z) (v : nat -> spec_float) (a b : expr).
Lemma feval_var i : feval prec emax v (EVar i) = v i. Proof. reflexivity. Qed.
Lemma feval_add : feval prec emax v (EAdd a b) = SFadd prec emax (feval prec emax v a) (feval prec emax v b). Proof. reflexivity. Qed.
Lemma feval_sub : feval prec emax v (ESub a b) = SFsub prec emax (feval prec emax v a) (feval prec emax v b). Proof. reflexivity. Qed.
Lemma feval_mul : feval prec emax v (EMul a b) = SFmul prec emax (feval prec emax v a) (feval prec emax v b). Proof. reflexivity. Qed.
Lemma feval_abs : feval prec emax v (EAbs a) = SFabs (feval prec emax v a). Proof. reflexivity. Qed.
Lemma feval_div n : feval prec emax v (EDiv a n) = SFdiv prec emax (feval prec emax v a) (of_int prec emax n). Proof. reflexivity. Qed.
End Steps.
Lemma feval_triple prec emax a b c : feval prec emax (fun i => nth i (coords a ++ coords b ++ coords c) f0) etriple = ftriple prec emax a b c.
Proof. unfold etriple, etriple_of, ftriple. cbn [feval nth coords app]. reflexivity. Qed.
Lemma feval_tet_det prec emax p q r s : feval prec emax (fun i => nth i (coords p ++ coords q ++ coords r ++ coords s) f0) etet_det = ftet_det prec emax p q r s.
Proof. unfold etet_det, e3, ftet_det. cbn [feval nth coords app Nat.mul Nat.add]. reflexivity. Qed.
Lemma feval_tet prec emax p q r s : feval prec emax (fun i => nth i (coords p ++ coords q ++ coords r ++ coords s) f0) etet = ftet_volume prec emax p q r s.
Proof. unfold etet, ftet_volume. rewrite feval_div, feval_abs, feval_tet_det. reflexivity. Qed.
Lemma feval_hex prec emax p0 p1 p2 p3 p4 p5 p6 p7 :
  feval prec emax (fun i => nth i (coords p0 ++ coords p1 ++ coords p2 ++ coords p3 ++ coords p4 ++ coords p5 ++ coords p6 ++ coords p7) f0) ehex = fhex_volume prec emax p0 p1 p2 p3 p4 p5 p6 p7.
Proof. unfold ehex, etriple_of, fhex_volume, ftriple, fsub3, fadd3. cbn [cx cy cz]. rewrite ?feval_div, ?feval_add, ?feval_abs, ?feval_sub, ?feval_mul, ?feval_add, ?feval_sub, ?feval_mul, ?feval_add, ?feval_sub, ?feval_var. cbn [Nat.mul Nat.add coords app nth]. reflexivity. Qed.
Lemma feval_det3 prec emax a b c d e f g h i : feval prec emax (fun k => nth k [a; b; c; d; e; f; g; h; i] f0) edet3 = fdet3 prec emax a b c d e f g h i.
Proof. unfold edet3, e3, fdet3. cbn [feval nth]. reflexivity. Qed.
Lemma reval_triple a b c : reval (fun i => FR (nth i (coords a ++ coords b ++ coords c) f0)) etriple = tripleR a b c.
Proof. unfold tripleR, det_rows, etriple, etriple_of. cbn [reval nth coords app]. ring. Qed.
Lemma reval_tet_det p q r s : reval (fun i => FR (nth i (coords p ++ coords q ++ coords r ++ coords s) f0)) etet_det = - tetR p q r s.
Proof. unfold tetR, det_rows, etet_det, e3. cbn [reval nth coords app Nat.mul Nat.add]. ring. Qed.
Lemma reval_det3 a b c d e f g h i : reval (fun k => FR (nth k [a; b; c; d; e; f; g; h; i] f0)) edet3 = det_rows (FR a) (FR b) (FR c) (FR d) (FR e) (FR f) (FR g) (FR h) (FR i).
Proof. unfold edet3, e3, det_rows. cbn [reval nth]. ring. Qed.
Lemma reval_triple_of v ax ay az bx by_ bz cx cy cz : reval v (etriple_of ax ay az bx by_ bz cx cy cz) =
  det_rows (reval v ax) (reval v ay) (reval v az) (reval v bx) (reval v by_) (reval v bz) (reval v cx) (reval v cy) (reval v cz).
Proof. unfold etriple_of, det_rows. cbn [reval]. ring. Qed.
Lemma reval_hex p0 p1 p2 p3 p4 p5 p6 p7 :
  reval (fun i => FR (nth i (coords p0 ++ coords p1 ++ coords p2 ++ coords p3 ++ coords p4 ++ coords p5 ++ coords p6 ++ coords p7) f0)) ehex = hexR p0 p1 p2 p3 p4 p5 p6 p7.
Proof.
  unfold ehex, hexR. set (v := fun i => FR (nth i (coords p0 ++ coords p1 ++ coords p2 ++ coords p3 ++ coords p4 ++ coords p5 ++ coords p6 ++ coords p7) f0)).
  match goal with |- reval v (EDiv (EAdd (EAdd (EAbs ?x) (EAbs ?y)) (EAbs ?z)) 12) = _ => change ((Rabs (reval v x) + Rabs (reval v y) + Rabs (reval v z)) / 12 = hexR p0 p1 p2 p3 p4 p5 p6 p7) end.
  rewrite !reval_triple_of. reflexivity.
Qed.

(** ** C146: rounding errors *)
Theorem C146_triple prec emax a b c : format prec emax -> numbers prec emax (coords a ++ coords b ++ coords c) -> fin (ftriple prec emax a b c) = true ->
  let x p := Rabs (FR (cx p)) in let y p := Rabs (FR (cy p)) in let z p := Rabs (FR (cz p)) in
  Rabs (FR (ftriple prec emax a b c) - tripleR a b c) <=
    ((1 + uu prec) ^ 7 - 1) * (x a * y b * z c + x b * y c * z a + x c * y a * z b + z a * y b * x c + z b * y c * x a + z c * y a * x b) +
    eta prec emax * ((1 + uu prec) ^ 7 * (6 + z c + z a + z b + x c + x a + x b)).
Proof.
  intros Hf V Fe x y z. rewrite <- feval_triple in *. set (v := fun i => nth i (coords a ++ coords b ++ coords c) f0) in *. pose proof (feval_error' prec emax Hf v (env_number prec emax _ V) etriple ltac:(repeat split) Fe) as E.
  assert (R : reval (fun i => FR (v i)) etriple = tripleR a b c) by apply reval_triple. rewrite R in E. change (depth etriple) with 7%nat in E. eapply Rle_trans; [exact E|]. unfold etriple, etriple_of. unfold v. cbn [aeval lost nth coords app]. fold (x a) (x b) (x c) (y a) (y b) (y c) (z a) (z b) (z c).
  right. ring.
Qed.
(** the sign is right when the exact value is larger than the error *)
Theorem C146_sign prec emax a b c : format prec emax -> numbers prec emax (coords a ++ coords b ++ coords c) -> fin (ftriple prec emax a b c) = true ->
  let x p := Rabs (FR (cx p)) in let y p := Rabs (FR (cy p)) in let z p := Rabs (FR (cz p)) in
  ((1 + uu prec) ^ 7 - 1) * (x a * y b * z c + x b * y c * z a + x c * y a * z b + z a * y b * x c + z b * y c * x a + z c * y a * x b) +
    eta prec emax * ((1 + uu prec) ^ 7 * (6 + z c + z a + z b + x c + x a + x b)) < Rabs (tripleR a b c) ->
  0 < FR (ftriple prec emax a b c) * tripleR a b c.
Proof. intros Hf V Fe x y z B. pose proof (C146_triple prec emax a b c Hf V Fe) as E. cbv zeta in E. apply Rabs_le_inv in E. unfold x, y, z in B. clear x y z. set (t := tripleR a b c) in *. match type of B with ?k < _ => set (K := k) in * end. clearbody K. unfold Rabs in B. destruct Rcase_abs in B; [assert (FR (ftriple prec emax a b c) < 0) by lra|assert (0 < FR (ftriple prec emax a b c)) by lra]; nra. Qed.
Theorem C146_det3 prec emax a b c d e f g h i : format prec emax -> numbers prec emax [a; b; c; d; e; f; g; h; i] -> fin (fdet3 prec emax a b c d e f g h i) = true ->
  let n x := Rabs (FR x) in
  Rabs (FR (fdet3 prec emax a b c d e f g h i) - det_rows (FR a) (FR b) (FR c) (FR d) (FR e) (FR f) (FR g) (FR h) (FR i)) <=
    ((1 + uu prec) ^ 7 - 1) * (n a * n e * n i + n b * n f * n g + n c * n d * n h + n g * n e * n c + n h * n f * n a + n i * n d * n b) +
    eta prec emax * ((1 + uu prec) ^ 7 * (6 + n i + n g + n h + n c + n a + n b)).
Proof.
  intros Hf V Fe n. rewrite <- feval_det3 in *. set (v := fun k => nth k [a; b; c; d; e; f; g; h; i] f0) in *. pose proof (feval_error' prec emax Hf v (env_number prec emax _ V) edet3 ltac:(repeat split) Fe) as E.
  assert (R : reval (fun i => FR (v i)) edet3 = det_rows (FR a) (FR b) (FR c) (FR d) (FR e) (FR f) (FR g) (FR h) (FR i)) by apply reval_det3. rewrite R in E. change (depth edet3) with 7%nat in E. eapply Rle_trans; [exact E|]. unfold edet3, e3. unfold v. cbn [aeval lost nth]. fold (n a) (n b) (n c) (n d) (n e) (n f) (n g) (n h) (n i).
  right. ring.
Qed.
(** coordinates of magnitude at most M: 24 products of three coordinates, divided by 6 *)
Theorem C146_tet prec emax M p q r s : format prec emax -> (3 <= prec)%Z -> 1 <= M -> numbers prec emax (coords p ++ coords q ++ coords r ++ coords s) ->
  Forall (fun x => Rabs (FR x) <= M) (coords p ++ coords q ++ coords r ++ coords s) -> fin (ftet_volume prec emax p q r s) = true ->
  Rabs (FR (ftet_volume prec emax p q r s) - Rabs (tetR p q r s) / 6) <= ((1 + uu prec) ^ 26 - 1) * (4 * M ^ 3) + eta prec emax * ((1 + uu prec) ^ 26 * (9 * M ^ 3)).
Proof.
  intros Hf H3 HM V B Fe. rewrite <- feval_tet in *. set (v := fun i => nth i (coords p ++ coords q ++ coords r ++ coords s) f0) in *.
  assert (D0 : divisors prec etet_det) by (repeat split). assert (D : divisors prec etet) by (split; [exact D0|split; [lia|]; pose proof (Z.pow_le_mono_r 2 3 prec); lia]).
  pose proof (feval_error' prec emax Hf v (env_number prec emax _ V) etet D Fe) as E. change (depth etet) with 26%nat in E.
  pose proof (aeval_terms prec v M HM (env_bound M _ HM B) etet_det D0) as A. pose proof (lost_losses prec emax Hf v M HM (env_bound M _ HM B) etet_det D0) as L.
  change (terms etet_det) with 24%nat in A. change (degree etet_det) with 3%nat in A, L. change (losses etet_det) with 48%nat in L.
  assert (R : reval (fun i => FR (v i)) etet = Rabs (tetR p q r s) / 6) by (unfold etet; cbn [reval]; unfold v; rewrite reval_tet_det, Rabs_Ropp; reflexivity).
  rewrite R in E. eapply Rle_trans; [exact E|]. unfold etet. cbn [aeval lost]. assert (K : 1 <= (1 + uu prec) ^ 26) by (apply pow_R1_Rle; pose proof (u_pos prec); lra). pose proof (eta_pos prec emax) as T.
  rewrite INR_IZR_INZ in A, L; cbn [Z.of_nat Pos.of_succ_nat Pos.succ] in A, L. assert (M3 : 1 <= M ^ 3) by (apply pow_R1_Rle; exact HM).
  apply Rplus_le_compat; [apply Rmult_le_compat_l; lra|]. apply Rmult_le_compat_l; [lra|]. apply Rmult_le_compat_l; lra.
Qed.
Theorem C146_hex prec emax M p0 p1 p2 p3 p4 p5 p6 p7 : format prec emax -> (4 <= prec)%Z -> 1 <= M ->
  let all := coords p0 ++ coords p1 ++ coords p2 ++ coords p3 ++ coords p4 ++ coords p5 ++ coords p6 ++ coords p7 in
  numbers prec emax all -> Forall (fun x => Rabs (FR x) <= M) all -> fin (fhex_volume prec emax p0 p1 p2 p3 p4 p5 p6 p7) = true ->
  Rabs (FR (fhex_volume prec emax p0 p1 p2 p3 p4 p5 p6 p7) - hexR p0 p1 p2 p3 p4 p5 p6 p7) <= ((1 + uu prec) ^ 14 - 1) * (24 * M ^ 3) + eta prec emax * ((1 + uu prec) ^ 14 * (7 * M ^ 3)).
Proof.
  intros Hf H4 HM all V B Fe. rewrite <- feval_hex in *. fold all in Fe |- *. set (v := fun i => nth i all f0) in *.
  assert (D : divisors prec ehex) by (repeat split; pose proof (Z.pow_le_mono_r 2 4 prec); lia).
  pose proof (feval_error' prec emax Hf v (env_number prec emax _ V) ehex D Fe) as E. set (h := match ehex with EDiv a _ => a | e => e end).
  assert (D0 : divisors prec h) by (exact (proj1 D)). assert (Eh : ehex = EDiv h 12) by reflexivity.
  pose proof (aeval_terms prec v M HM (env_bound M _ HM B) h D0) as A. pose proof (lost_losses prec emax Hf v M HM (env_bound M _ HM B) h D0) as L.
  change (terms h) with 288%nat in A. change (degree h) with 3%nat in A, L. 
  assert (R : reval (fun i => FR (v i)) ehex = hexR p0 p1 p2 p3 p4 p5 p6 p7) by apply reval_hex.
  rewrite R in E. clear R. rewrite Eh in E. change (depth (EDiv h 12)) with 14%nat in E. eapply Rle_trans; [exact E|]. cbn [aeval lost]. change (losses h) with 66%nat in L.
  assert (K : 1 <= (1 + uu prec) ^ 14) by (apply pow_R1_Rle; pose proof (u_pos prec); lra). pose proof (eta_pos prec emax) as T.
  rewrite INR_IZR_INZ in A, L; cbn [Z.of_nat Pos.of_succ_nat Pos.succ] in A, L. assert (M3 : 1 <= M ^ 3) by (apply pow_R1_Rle; exact HM).
  apply Rplus_le_compat; [apply Rmult_le_compat_l; lra|]. apply Rmult_le_compat_l; [lra|]. apply Rmult_le_compat_l; lra.
Qed.
(** the volumes are finite when the coordinates are not too large *)
Theorem C146_finite prec emax M p q r s : format prec emax -> (3 <= prec)%Z -> 1 <= M -> numbers prec emax (coords p ++ coords q ++ coords r ++ coords s) ->
  Forall (fun x => fin x = true /\ Rabs (FR x) <= M) (coords p ++ coords q ++ coords r ++ coords s) -> (1 + uu prec) ^ 26 * (73 * M ^ 3) < pw emax -> fin (ftet_volume prec emax p q r s) = true.
Proof.
  intros Hf H3 HM V B L. apply Forall_and_inv in B as [B1 B2]. rewrite <- feval_tet.
  assert (D : divisors prec etet) by (split; [repeat split|split; [lia|]; pose proof (Z.pow_le_mono_r 2 3 prec); lia]).
  apply (feval_finite_bounded prec emax Hf _ (env_number prec emax _ V) M HM (env_bound M _ HM B2) etet D (env_fin _ B1)).
  change (depth etet) with 26%nat. change (degree etet) with 3%nat. change (terms etet + losses etet)%nat with 73%nat. rewrite INR_IZR_INZ. exact L.
Qed.
Theorem C146_hex_finite prec emax M p0 p1 p2 p3 p4 p5 p6 p7 : format prec emax -> (4 <= prec)%Z -> 1 <= M ->
  let all := coords p0 ++ coords p1 ++ coords p2 ++ coords p3 ++ coords p4 ++ coords p5 ++ coords p6 ++ coords p7 in
  numbers prec emax all -> Forall (fun x => fin x = true /\ Rabs (FR x) <= M) all -> (1 + uu prec) ^ 14 * (355 * M ^ 3) < pw emax -> fin (fhex_volume prec emax p0 p1 p2 p3 p4 p5 p6 p7) = true.
Proof.
  intros Hf H4 HM all V B L. apply Forall_and_inv in B as [B1 B2]. rewrite <- feval_hex.
  assert (D : divisors prec ehex) by (repeat split; pose proof (Z.pow_le_mono_r 2 4 prec); lia).
  apply (feval_finite_bounded prec emax Hf _ (env_number prec emax _ V) M HM (env_bound M _ HM B2) ehex D (env_fin _ B1)).
  change (depth ehex) with 14%nat. change (degree ehex) with 3%nat. change (terms ehex + losses ehex)%nat with 355%nat. rewrite INR_IZR_INZ. exact L.
Qed.
(** volumes are never negative *)
Lemma abs_div_nonneg prec emax n d : format prec emax -> (0 < n < 2 ^ prec)%Z -> number prec emax d -> fin (SFdiv prec emax (SFabs d) (of_int prec emax n)) = true ->
  0 <= FR (SFdiv prec emax (SFabs d) (of_int prec emax n)).
Proof.
  intros [Hp He] H V F. destruct (of_int_exact prec emax Hp He n H) as (O1 & O2 & O3). set (k := of_int prec emax n) in *. clearbody k.
  assert (Fd : fin (SFabs d) = true) by (destruct (SFabs d), k; try reflexivity; discriminate). assert (N : 0 < IZR n) by (apply IZR_lt; lia).
  pose proof (div_correct prec emax Hp ltac:(lia) (SFabs d) k Fd O1 ltac:(rewrite valid_abs; exact V) O2 ltac:(rewrite O3; lra)) as A.
  apply (proj1 (approx_le prec emax _ _ _ 0 A F (isfl_0 prec emax))). rewrite FR_abs, O3. apply Rmult_le_pos; [apply Rabs_pos|left; apply Rinv_0_lt_compat; exact N].
Qed.
Lemma tet_det_number prec emax p q r s : format prec emax -> numbers prec emax (coords p ++ coords q ++ coords r ++ coords s) -> number prec emax (ftet_det prec emax p q r s).
Proof. intros Hf V. rewrite <- feval_tet_det. apply feval_valid; [exact Hf|apply env_number, V|repeat split]. Qed.
Theorem C146_nonneg prec emax p q r s : format prec emax -> (3 <= prec)%Z -> numbers prec emax (coords p ++ coords q ++ coords r ++ coords s) -> fin (ftet_volume prec emax p q r s) = true -> 0 <= FR (ftet_volume prec emax p q r s).
Proof.
  intros Hf H3 V. apply (abs_div_nonneg prec emax 6 _ Hf); [split; [lia|]; pose proof (Z.pow_le_mono_r 2 3 prec); lia|apply tet_det_number; assumption].
Qed.

Lemma sixth prec emax d t : format prec emax -> (0 < 6 < 2 ^ prec)%Z -> number prec emax d -> fin d = true -> FR d = - t -> whole (- t) ->
  approx prec emax (SFdiv prec emax (SFabs d) (of_int prec emax 6)) (Rabs t / 6) (Rmax (uu prec * (Rabs t / 6)) (eta prec emax)) /\
  fin (SFdiv prec emax (SFabs d) (of_int prec emax 6)) = true /\ (FR (SFdiv prec emax (SFabs d) (of_int prec emax 6)) = 0 <-> t = 0).
Proof.
  intros Hf H6 Vd F E W. pose proof Hf as [Hp He]. destruct (of_int_exact prec emax Hp He 6 H6) as (O1 & O2 & O3).
  pose proof (div_correct prec emax Hp ltac:(lia) (SFabs d) _ ltac:(rewrite fin_abs; exact F) O1 ltac:(rewrite valid_abs; exact Vd) O2 ltac:(rewrite O3; lra)) as A.
  rewrite FR_abs, O3, E, Rabs_Ropp in A. rewrite (Rabs_pos_eq (Rabs _ / 6)) in A by (apply Rmult_le_pos; [apply Rabs_pos|lra]).
  split; [exact A|]. pose proof (u_pos prec) as U1. pose proof (u_le prec Hp) as U2. pose proof (eta_small prec emax Hf) as T. pose proof (eta_pos prec emax) as T0. pose proof (Rabs_pos t) as P.
  assert (Ld : Rabs t < pw emax) by (rewrite <- Rabs_Ropp, <- E, <- FR_abs; apply (isfl_lt prec emax), isfl_FR; [rewrite fin_abs; exact F|rewrite valid_abs; exact Vd]).
  assert (L4 : 4 <= pw emax) by (replace 4 with (pw 2) by (unfold pw; simpl; lra); apply pw_le; lia).
  assert (Fz : fin (SFdiv prec emax (SFabs d) (of_int prec emax 6)) = true).
  { apply (approx_fin prec emax _ _ _ A). rewrite (Rabs_pos_eq (Rabs t / 6)) by lra. assert (Rmax (uu prec * (Rabs t / 6)) (eta prec emax) <= / 4 * (Rabs t / 6) + / 4) by (assert (uu prec * (Rabs t / 6) <= / 4 * (Rabs t / 6)) by (apply Rmult_le_compat_r; lra); apply Rmax_lub; lra). lra. }
  assert (A' := A). split; [exact Fz|]. destruct A as [_ [(_ & _ & B & _)|(s & Z & _)]]; [|rewrite Z in Fz; discriminate]. set (z := SFdiv _ _ _ _) in *. clearbody z.
  split; intros X.
  - destruct (Req_dec t 0) as [Z|Z]; [exact Z|exfalso]. destruct W as [n W]. assert (N : n <> 0%Z) by (intros ->; apply Z; lra). assert (O : 1 <= Rabs t).
    { rewrite <- Rabs_Ropp, W, <- abs_IZR. apply IZR_le. lia. }
    rewrite X, Rminus_0_l, Rabs_Ropp, (Rabs_pos_eq (Rabs t / 6)) in B by lra. assert (E8 : eta prec emax <= / 8).
    { unfold FloatRound.eta. replace (/ 8) with (pw (-3)) by (unfold pw; simpl; lra). apply pw_le. unfold emin. lia. }
    assert (uu prec * (Rabs t / 6) <= / 4 * (Rabs t / 6)) by (apply Rmult_le_compat_r; lra). unfold Rmax in B. destruct Rle_dec; lra.
  - subst t. rewrite Rabs_R0 in A'. unfold Rdiv in A'. rewrite Rmult_0_l in A'. apply (approx_exact prec emax _ _ _ A'). apply isfl_0.
Qed.

(** ** C147: whole coordinates are computed exactly *)
Theorem C147_triple prec emax M a b c : format prec emax -> 1 <= M -> numbers prec emax (coords a ++ coords b ++ coords c) ->
  Forall (fun x => (fin x = true /\ whole (FR x)) /\ Rabs (FR x) <= M) (coords a ++ coords b ++ coords c) -> 6 * M ^ 3 < pw prec ->
  fin (ftriple prec emax a b c) = true /\ FR (ftriple prec emax a b c) = tripleR a b c.
Proof.
  intros Hf HM V B L. apply Forall_and_inv in B as [B1 B2]. rewrite <- feval_triple. set (v := fun i => nth i (coords a ++ coords b ++ coords c) f0).
  destruct (feval_exact_bounded prec emax Hf v (env_number prec emax _ V) M etriple HM (env_bound M _ HM B2) ltac:(repeat split) (env_whole _ B1)) as (F & E & _).
  - change (terms etriple) with 6%nat. change (degree etriple) with 3%nat. rewrite INR_IZR_INZ. exact L.
  - split; [exact F|]. rewrite E. apply reval_triple.
Qed.
Theorem C147_det3 prec emax M a b c d e f g h i : format prec emax -> 1 <= M -> let all := [a; b; c; d; e; f; g; h; i] in numbers prec emax all ->
  Forall (fun x => (fin x = true /\ whole (FR x)) /\ Rabs (FR x) <= M) all -> 6 * M ^ 3 < pw prec ->
  fin (fdet3 prec emax a b c d e f g h i) = true /\ FR (fdet3 prec emax a b c d e f g h i) = det_rows (FR a) (FR b) (FR c) (FR d) (FR e) (FR f) (FR g) (FR h) (FR i).
Proof.
  intros Hf HM all V B L. apply Forall_and_inv in B as [B1 B2]. rewrite <- feval_det3. fold all. set (v := fun i => nth i all f0).
  destruct (feval_exact_bounded prec emax Hf v (env_number prec emax _ V) M edet3 HM (env_bound M _ HM B2) ltac:(repeat split) (env_whole _ B1)) as (F & E & _).
  - change (terms edet3) with 6%nat. change (degree edet3) with 3%nat. rewrite INR_IZR_INZ. exact L.
  - split; [exact F|]. rewrite E. apply reval_det3.
Qed.
(** so small whole 3x3 matrices are rejected exactly when singular *)
Theorem C147_inverse3 prec emax M a b c d e f g h i : format prec emax -> 1 <= M -> let all := [a; b; c; d; e; f; g; h; i] in numbers prec emax all ->
  Forall (fun x => (fin x = true /\ whole (FR x)) /\ Rabs (FR x) <= M) all -> 6 * M ^ 3 < pw prec ->
  (finverse3 prec emax a b c d e f g h i = None <-> det_rows (FR a) (FR b) (FR c) (FR d) (FR e) (FR f) (FR g) (FR h) (FR i) = 0).
Proof.
  intros Hf HM all V B L. destruct (C147_det3 prec emax M a b c d e f g h i Hf HM V B L) as [F E]. unfold finverse3.
  assert (Vd : number prec emax (fdet3 prec emax a b c d e f g h i)) by (rewrite <- feval_det3; apply feval_valid; [exact Hf|apply env_number, V|repeat split]).
  destruct Hf. rewrite (eqb_spec prec emax) by (assumption || reflexivity). rewrite <- E. cbn [FR f0]. destruct Req_EM_T; split; intros; try assumption; try reflexivity; try discriminate; contradiction.
Qed.
(** and the volume of a tetrahedron is the rounded exact volume, zero exactly when the points are in one plane *)
Theorem C147_tet prec emax M p q r s : format prec emax -> (3 <= prec)%Z -> 1 <= M -> numbers prec emax (coords p ++ coords q ++ coords r ++ coords s) ->
  Forall (fun x => (fin x = true /\ whole (FR x)) /\ Rabs (FR x) <= M) (coords p ++ coords q ++ coords r ++ coords s) -> 24 * M ^ 3 < pw prec ->
  approx prec emax (ftet_volume prec emax p q r s) (Rabs (tetR p q r s) / 6) (Rmax (uu prec * (Rabs (tetR p q r s) / 6)) (eta prec emax)) /\
  fin (ftet_volume prec emax p q r s) = true /\ (FR (ftet_volume prec emax p q r s) = 0 <-> tetR p q r s = 0).
Proof.
  intros Hf H3 HM V B L. apply Forall_and_inv in B as [B1 B2]. set (v := fun i => nth i (coords p ++ coords q ++ coords r ++ coords s) f0).
  destruct (feval_exact_bounded prec emax Hf v (env_number prec emax _ V) M etet_det HM (env_bound M _ HM B2) ltac:(repeat split) (env_whole _ B1)) as (F & E & W).
  { change (terms etet_det) with 24%nat. change (degree etet_det) with 3%nat. rewrite INR_IZR_INZ. exact L. }
  assert (Q : reval (fun i => FR (v i)) etet_det = - tetR p q r s) by apply reval_tet_det. rewrite Q in E, W. unfold v in F, E. rewrite feval_tet_det in F, E. clear Q.
  pose proof (tet_det_number prec emax p q r s Hf V) as Vd.
  assert (H6 : (0 < 6 < 2 ^ prec)%Z) by (split; [lia|]; pose proof (Z.pow_le_mono_r 2 3 prec); lia).
  change (ftet_volume prec emax p q r s) with (SFdiv prec emax (SFabs (ftet_det prec emax p q r s)) (of_int prec emax 6)). set (d := ftet_det prec emax p q r s) in *. clearbody d.
  apply sixth; try assumption. 
Qed.
Example C146_ex : let a := P3 d_3 d_1 d_2 in let b := P3 d_1 d_4 d_1 in let c := P3 d_2 d_1 d_5 in
  numbers 53 1024 (coords a ++ coords b ++ coords c) /\ SFeqb (ftriple 53 1024 a b c) (of_int 53 1024 40) = true.
Proof. split; [repeat constructor|vm_compute; reflexivity]. Qed.
Example C146_hex_ex : let p x y z := P3 x y z in
  fhex_volume 53 1024 (P3 f0 f0 f0) (P3 d_3 f0 f0) (P3 d_3 d_2 f0) (P3 f0 d_2 f0) (P3 f0 f0 d_5) (P3 d_3 f0 d_5) (P3 d_3 d_2 d_5) (P3 f0 d_2 d_5) = of_int 53 1024 30.
Proof. vm_compute. reflexivity. Qed.
Example C147_ex : let p := P3 f0 f0 f0 in let q := P3 d_3 f0 f0 in let r := P3 f0 d_2 f0 in let s := P3 f0 f0 d_5 in
  numbers 53 1024 (coords p ++ coords q ++ coords r ++ coords s) /\ ftet_volume 53 1024 p q r s = d_5 /\
  finverse3 53 1024 d_1 d_2 d_3 d_2 d_4 d_5 d_3 (of_int 53 1024 6) (of_int 53 1024 8) = None.
Proof. split; [repeat constructor|vm_compute; split; reflexivity]. Qed.
Print Assumptions C146_triple. Print Assumptions C146_sign. Print Assumptions C146_det3. Print Assumptions C146_tet. Print Assumptions C146_hex. Print Assumptions C146_finite. Print Assumptions C146_hex_finite. Print Assumptions C146_nonneg.
Print Assumptions C147_triple. Print Assumptions C147_det3. Print Assumptions C147_inverse3. Print Assumptions C147_tet.

(** ** C148: volumes and the position of the shape *)
(** q is p moved by (tx, ty, tz), exactly *)
Definition moved (tx ty tz : R) (p q : p3) : Prop := FR (cx q) = FR (cx p) + tx /\ FR (cy q) = FR (cy p) + ty /\ FR (cz q) = FR (cz p) + tz.
Definition good (prec emax : Z) (p : p3) : Prop := Forall (fun x => fin x = true /\ number prec emax x) (coords p).
Definition same3 (a b : p3) : Prop := same (cx a) (cx b) /\ same (cy a) (cy b) /\ same (cz a) (cz b).
Lemma same3_sub prec emax tx ty tz p q p' q' : format prec emax -> good prec emax p -> good prec emax q -> good prec emax p' -> good prec emax q' ->
  moved tx ty tz p p' -> moved tx ty tz q q' -> same3 (fsub3 prec emax p q) (fsub3 prec emax p' q').
Proof.
  intros [Hp He] G1 G2 G3 G4 (X1 & Y1 & Z1) (X2 & Y2 & Z2). unfold good, coords in *.
  repeat match goal with H : Forall _ (_ :: _) |- _ => let A := fresh in let B := fresh in apply Forall_cons_iff in H as [[A B] H] end.
  unfold same3, fsub3. cbn [cx cy cz]. repeat split; apply sub_same; try assumption; lra.
Qed.
Lemma same3_add prec emax a b a' b' : same3 a a' -> same3 b b' -> same3 (fadd3 prec emax a b) (fadd3 prec emax a' b').
Proof. intros (A1 & A2 & A3) (B1 & B2 & B3). unfold same3, fadd3. cbn [cx cy cz]. repeat split; apply same_add; assumption. Qed.
Lemma same_triple prec emax a b c a' b' c' : same3 a a' -> same3 b b' -> same3 c c' -> same (ftriple prec emax a b c) (ftriple prec emax a' b' c').
Proof. intros (A1 & A2 & A3) (B1 & B2 & B3) (C1 & C2 & C3). unfold ftriple. repeat first [apply same_sub|apply same_add|apply same_mul]; assumption. Qed.
(** moving a hexahedron does not change its computed volume, however large the coordinates, as long as the moved
    coordinates are exactly representable *)
Theorem C148_hex prec emax tx ty tz p0 p1 p2 p3 p4 p5 p6 p7 q0 q1 q2 q3 q4 q5 q6 q7 : format prec emax ->
  Forall (good prec emax) [p0; p1; p2; p3; p4; p5; p6; p7] -> Forall (good prec emax) [q0; q1; q2; q3; q4; q5; q6; q7] ->
  Forall (fun pq => moved tx ty tz (fst pq) (snd pq)) [(p0, q0); (p1, q1); (p2, q2); (p3, q3); (p4, q4); (p5, q5); (p6, q6); (p7, q7)] ->
  fhex_volume prec emax q0 q1 q2 q3 q4 q5 q6 q7 = fhex_volume prec emax p0 p1 p2 p3 p4 p5 p6 p7.
Proof.
  intros Hf G1 G2 G3. repeat match goal with H : Forall _ (_ :: _) |- _ => let A := fresh "G" in apply Forall_cons_iff in H as [A H]; cbn [fst snd] in A end.
  symmetry. unfold fhex_volume. cbv zeta.
  assert (S : forall p q p' q', good prec emax p -> good prec emax q -> good prec emax p' -> good prec emax q' -> moved tx ty tz p p' -> moved tx ty tz q q' -> same3 (fsub3 prec emax p q) (fsub3 prec emax p' q')) by (intros; eapply same3_sub; eassumption).
  f_equal. f_equal; [f_equal|]; apply same_abs, same_triple; try apply same3_add; apply S; assumption.
Qed.
(** the volume of a tetrahedron is not that lucky: the tetrahedron with edges of length one along the axes has the volume
    1/6, but 42.67 when its corner is at (1e6, 1e6, 1e6) and 0 at (1e8, 1e8, 1e8); four points of which two are equal can
    have a volume, and the volume depends on the order of the points *)
Definition d_1e6 : spec_float := S754_finite false 8589934592000000 (-33).
Definition d_1e6_1 : spec_float := S754_finite false 8589943181934592 (-33).
Definition d_08 : spec_float := S754_finite false 7205759403792794 (-53).
Definition d_1e8 : spec_float := of_int 53 1024 100000000.
Definition d_1e8_1 : spec_float := of_int 53 1024 100000001.
Definition tet_at (o o1 : spec_float) : spec_float := ftet_volume 53 1024 (P3 o o o) (P3 o1 o o) (P3 o o1 o) (P3 o o o1).
Theorem C148_refuted :
  tet_at f0 d_1 = SFdiv 53 1024 d_1 (of_int 53 1024 6) /\
  tet_at d_1e6 d_1e6_1 = S754_finite false 6004799503160661 (-47) /\ SFltb (of_int 53 1024 42) (S754_finite false 6004799503160661 (-47)) = true /\
  tetR (P3 d_1e6 d_1e6 d_1e6) (P3 d_1e6_1 d_1e6 d_1e6) (P3 d_1e6 d_1e6_1 d_1e6) (P3 d_1e6 d_1e6 d_1e6_1) = 1 /\
  tet_at d_1e8 d_1e8_1 = S754_zero false /\
  (let a := P3 d_06 d_04 d_06 in let b := P3 d_06 d_tenth d_tenth in let c := P3 d_09 d_08 d_06 in
   SFltb f0 (ftet_volume 53 1024 a b c c) = true) /\
  (let a := P3 d_03 d_02 d_03 in let b := P3 d_07 d_02 d_05 in let c := P3 d_07 d_09 d_tenth in let d := P3 d_04 d_05 d_tenth in
   SFeqb (ftet_volume 53 1024 a b c d) (ftet_volume 53 1024 b a c d) = false) /\
  (let a := P3 d_03 d_tenth d_08 in let b := P3 d_04 d_04 d_09 in SFeqb (ftriple 53 1024 a b a) f0 = false).
Proof.
  split; [vm_compute; reflexivity|]. split; [vm_compute; reflexivity|]. split; [vm_compute; reflexivity|].
  split; [|vm_compute; repeat split; reflexivity].
  unfold tetR, det_rows. cbn [cx cy cz]. assert (E : FR d_1e6_1 = FR d_1e6 + 1).
  { unfold d_1e6_1, d_1e6. cbn [FR]. assert (P : 8589934592 * pw (-33) = 1) by (replace 8589934592 with (pw 33) by (rewrite <- pw_Z by lia; reflexivity); rewrite <- pw_add; apply pw_0). unfold sgnR. lra. }
  rewrite E. ring.
Qed.
Example C148_ex : let p x y z := P3 x y z in
  fhex_volume 53 1024 (P3 d_1e8 f0 f0) (P3 d_1e8_1 f0 f0) (P3 d_1e8_1 d_1 f0) (P3 d_1e8 d_1 f0) (P3 d_1e8 f0 d_1) (P3 d_1e8_1 f0 d_1) (P3 d_1e8_1 d_1 d_1) (P3 d_1e8 d_1 d_1) = d_1.
Proof. vm_compute. reflexivity. Qed.
Print Assumptions C148_hex. Print Assumptions C148_refuted.
