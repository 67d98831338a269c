(** Model of ristra/geometry: area.h, area_impl.h, centroid.h, centroid_impl.h and shapes/{triangle,
    quadrilateral,polygon,tetrahedron,hexahedron,polyhedron}.h, over the reals.
    Points are the records v2 / v3 of VectorModel. Variadic packs and iterator ranges are lists; the
    compile-time minimum number of arguments of the variadic versions (enable_if) is a hypothesis of
    the theorems. Overload resolution is not modelled. Rounding is not modelled. *)
From Coq Require Import Reals List Bool.
From Verif Require Import Outcome VectorModel.
Import ListNotations.
Local Open Scope R_scope.

(** array.h element operators on points (C28) *)
Definition add3 (a b : v3) : v3 := V3 (x3 a + x3 b) (y3 a + y3 b) (z3 a + z3 b).
Definition sub3 (a b : v3) : v3 := V3 (x3 a - x3 b) (y3 a - y3 b) (z3 a - z3 b).
Definition mul3 (a b : v3) : v3 := V3 (x3 a * x3 b) (y3 a * y3 b) (z3 a * z3 b).
Definition scale3 (s : R) (a : v3) : v3 := V3 (s * x3 a) (s * y3 a) (s * z3 a).
Definition div3 (a : v3) (s : R) : v3 := V3 (x3 a / s) (y3 a / s) (z3 a / s).
Definition zero3 : v3 := V3 0 0 0.
Definition add2 (a b : v2) : v2 := V2 (x2 a + x2 b) (y2 a + y2 b).
Definition div2 (a : v2) (s : R) : v2 := V2 (x2 a / s) (y2 a / s).
Definition zero2 : v2 := V2 0 0.

(** math::average of points: variadic general.h 36-47, container 77-88, iterators 92-107 *)
Definition average3_variadic (t : v3) (args : list v3) : v3 := div3 (fold_left add3 args t) (INR (length args + 1)).
Definition average3 (dbg : bool) (l : list v3) : outcome v3 :=
  assert_then dbg (Nat.ltb 0 (length l)) (Ok (div3 (fold_left add3 l zero3) (INR (length l)))).
Definition average2d_variadic (t : v2) (args : list v2) : v2 := div2 (fold_left add2 args t) (INR (length args + 1)).

(** the loop shared by the iterator versions:
    po = prev(last); for (pn = first; pn != last; ++pn) { body; po = pn; } *)
Definition edge_loop {P S : Type} (body : P -> P -> S -> S) (points : list P) (s : S) : S :=
  match rev points with
  | nil => s  (* prev(last) of an empty range; callers assert or test the size first *)
  | po :: _ => fst (fold_left (fun st pn => (body (snd st) pn (fst st), pn)) points (s, po))
  end.
(** the recursion shared by the variadic versions: f_( acc, v1, v2, args... ) { body(v1,v2); f_( acc, v2, args... ) } *)
Fixpoint pairs {P S : Type} (body : P -> P -> S -> S) (v1 : P) (args : list P) (s : S) : S :=
  match args with nil => s | v2 :: args' => pairs body v2 args' (body v1 v2 s) end.

(** polygon<2>: area_ 74-84, area variadic 222-242, iterators 249-269; area.h 22-38, 43-63; area_impl.h 22-38 *)
Definition area2_body (po pn : v2) (a : R) : R := a + (x2 po * y2 pn - x2 pn * y2 po).
Definition polygon2_area_variadic (t : v2) (args : list v2) : R :=
  Rabs (pairs area2_body t (args ++ [t]) 0 / 2).
Definition polygon2_area (dbg : bool) (points : list v2) : outcome R :=
  assert_then dbg (Nat.ltb 2 (length points)) (
  match points with nil => UB | _ => Ok (Rabs (edge_loop area2_body points 0 / 2)) end).
(** polygon<2>::normal 291-313, 319-340 *)
Definition polygon2_normal_variadic (t : v2) (args : list v2) : v2 :=
  V2 0 (pairs area2_body t (args ++ [t]) 0 / 2).
Definition polygon2_normal (dbg : bool) (points : list v2) : outcome v2 :=
  assert_then dbg (Nat.ltb 2 (length points)) (
  match points with nil => UB | _ => Ok (V2 0 (edge_loop area2_body points 0 / 2)) end).
(** polygon<2>: centroid_ 46-66, centroid variadic 143-165, iterators 172-200; centroid.h 27-45, 50-76.
    State: (cx, volume). *)
Definition centroid2_body (v1 v2 : v2) (s : VectorModel.v2 * R) : VectorModel.v2 * R :=
  let tmp := x2 v1 * y2 v2 - x2 v2 * y2 v1 in
  (V2 (x2 (fst s) + (x2 v1 + x2 v2) * tmp) (y2 (fst s) + (y2 v1 + y2 v2) * tmp), snd s + tmp).
Definition centroid2_body_it (po pn : v2) (s : v2 * R) : v2 * R :=
  let tmp := x2 po * y2 pn - x2 pn * y2 po in
  (V2 (x2 (fst s) + tmp * (x2 po + x2 pn)) (y2 (fst s) + tmp * (y2 po + y2 pn)), snd s + tmp).
Definition polygon2_centroid_variadic (t : v2) (args : list v2) : v2 :=
  let s := pairs centroid2_body t (args ++ [t]) (zero2, 0) in div2 (fst s) (3 * snd s).
Definition polygon2_centroid (dbg : bool) (points : list v2) : outcome v2 :=
  assert_then dbg (Nat.ltb 2 (length points)) (
  match points with nil => UB | _ =>
    let s := edge_loop centroid2_body_it points (zero2, 0) in Ok (div2 (fst s) (3 * snd s)) end).

(** triangle<2> 44-93 *)
Definition triangle2_midpoint (p0 p1 p2 : v2) : v2 :=
  let third := 1 / 3 in V2 (third * (x2 p0 + x2 p1 + x2 p2)) (third * (y2 p0 + y2 p1 + y2 p2)).
Definition triangle2_area (p0 p1 p2 : v2) : R :=
  let half := 1 / 2 in
  half * Rabs (cross2 (V2 (x2 p1 - x2 p0) (y2 p1 - y2 p0)) (V2 (x2 p2 - x2 p0) (y2 p2 - y2 p0))).
Definition triangle2_normal (p0 p1 p2 : v2) : v2 :=
  let half := 1 / 2 in
  V2 0 (half * cross2 (V2 (x2 p1 - x2 p0) (y2 p1 - y2 p0)) (V2 (x2 p2 - x2 p0) (y2 p2 - y2 p0))).
(** triangle<3> 110-170 *)
Definition triangle3_midpoint (p0 p1 p2 : v3) : v3 :=
  let third := 1 / 3 in
  V3 (third * (x3 p0 + x3 p1 + x3 p2)) (third * (y3 p0 + y3 p1 + y3 p2)) (third * (z3 p0 + z3 p1 + z3 p2)).
Definition triangle3_area (p0 p1 p2 : v3) : R :=
  let half := 1 / 2 in half * mag3 (cross3 (sub3 p1 p0) (sub3 p2 p0)).
Definition triangle3_normal (p0 p1 p2 : v3) : v3 :=
  let half := 1 / 2 in
  let cross := cross3 (sub3 p1 p0) (sub3 p2 p0) in V3 (x3 cross * half) (y3 cross * half) (z3 cross * half).
(** quadrilateral<2>::midpoint 46-56, quadrilateral<3>::midpoint 118-129; their other members forward to polygon *)
Definition quad2_midpoint (p0 p1 p2 p3 : v2) : v2 :=
  let fourth := 1 / 4 in V2 (fourth * (x2 p0 + x2 p1 + x2 p2 + x2 p3)) (fourth * (y2 p0 + y2 p1 + y2 p2 + y2 p3)).
Definition quad3_midpoint (p0 p1 p2 p3 : v3) : v3 :=
  let fourth := 1 / 4 in
  V3 (fourth * (x3 p0 + x3 p1 + x3 p2 + x3 p3)) (fourth * (y3 p0 + y3 p1 + y3 p2 + y3 p3)) (fourth * (z3 p0 + z3 p1 + z3 p2 + z3 p3)).

(** polygon<3>: area_ 376-389, area 581-603 and 609-635; normal_ 425-438, normal 656-678 and 684-709;
    centroid_ 401-418, centroid 497-520 and 527-559 *)
Definition area3_body (xm v1 v2 : v3) (a : R) : R := a + triangle3_area v1 v2 xm.
Definition normal3_body (xm v1 v2 : v3) (n : v3) : v3 := add3 n (triangle3_normal v1 v2 xm).
Definition centroid3_body (xm v1 v2 : v3) (s : R * v3) : R * v3 :=
  let a := triangle3_area v1 v2 xm in (fst s + a, add3 (snd s) (scale3 a (triangle3_midpoint v1 v2 xm))).
Definition polygon3_area_variadic (t : v3) (args : list v3) : R :=
  let xm := average3_variadic t args in pairs (area3_body xm) t (args ++ [t]) 0.
Definition polygon3_normal_variadic (t : v3) (args : list v3) : v3 :=
  let xm := average3_variadic t args in pairs (normal3_body xm) t (args ++ [t]) zero3.
Definition polygon3_centroid_variadic (t : v3) (args : list v3) : v3 :=
  let xm := average3_variadic t args in
  let s := pairs (centroid3_body xm) t (args ++ [t]) (0, zero3) in div3 (snd s) (fst s).
Definition polygon3_it {S : Type} (dbg : bool) (points : list v3) (k : v3 -> outcome S) : outcome S :=
  assert_then dbg (Nat.ltb 3 (length points)) (bind (average3 dbg points) (fun xm =>
  match points with nil => UB | _ => k xm end)).
Definition polygon3_area (dbg : bool) (points : list v3) : outcome R :=
  polygon3_it dbg points (fun xm => Ok (edge_loop (area3_body xm) points 0)).
Definition polygon3_normal (dbg : bool) (points : list v3) : outcome v3 :=
  polygon3_it dbg points (fun xm => Ok (edge_loop (normal3_body xm) points zero3)).
Definition polygon3_centroid (dbg : bool) (points : list v3) : outcome v3 :=
  polygon3_it dbg points (fun xm =>
    let s := edge_loop (centroid3_body xm) points (0, zero3) in Ok (div3 (snd s) (fst s))).

(** tetrahedron 35-74 *)
Definition tet_midpoint (p0 p1 p2 p3 : v3) : v3 := quad3_midpoint p0 p1 p2 p3.
Definition tet_det (p0 p1 p2 p3 : v3) : R :=
  x3 p3 * y3 p2 * z3 p1 - x3 p2 * y3 p3 * z3 p1 -
  x3 p3 * y3 p1 * z3 p2 + x3 p1 * y3 p3 * z3 p2 +
  x3 p2 * y3 p1 * z3 p3 - x3 p1 * y3 p2 * z3 p3 -
  x3 p3 * y3 p2 * z3 p0 + x3 p2 * y3 p3 * z3 p0 +
  x3 p3 * y3 p0 * z3 p2 - x3 p0 * y3 p3 * z3 p2 -
  x3 p2 * y3 p0 * z3 p3 + x3 p0 * y3 p2 * z3 p3 +
  x3 p3 * y3 p1 * z3 p0 - x3 p1 * y3 p3 * z3 p0 -
  x3 p3 * y3 p0 * z3 p1 + x3 p0 * y3 p3 * z3 p1 +
  x3 p1 * y3 p0 * z3 p3 - x3 p0 * y3 p1 * z3 p3 -
  x3 p2 * y3 p1 * z3 p0 + x3 p1 * y3 p2 * z3 p0 +
  x3 p2 * y3 p0 * z3 p1 - x3 p0 * y3 p2 * z3 p1 -
  x3 p1 * y3 p0 * z3 p2 + x3 p0 * y3 p1 * z3 p2.
Definition tet_volume (p0 p1 p2 p3 : v3) : R := Rabs (tet_det p0 p1 p2 p3) / 6.

(** polyhedron: the state is faces_; insert 44-62 appends a copy of the points *)
Definition polyhedron := list (list v3).
Definition insert (p : polyhedron) (points : list v3) : polyhedron := p ++ [points].
(** one pass of the face loop of volume 162-192; average of an empty face asserts / prev(end) is undefined *)
Definition face {S : Type} (dbg : bool) (body : v3 -> v3 -> v3 -> S -> S) (points : list v3) (s : S) : outcome S :=
  bind (average3 dbg points) (fun xm => match points with nil => UB | _ => Ok (edge_loop (body xm) points s) end).
Definition faces {S : Type} (dbg : bool) (body : v3 -> v3 -> v3 -> S -> S) (p : polyhedron) (s : S) : outcome S :=
  fold_left (fun s pts => bind s (face dbg body pts)) p (Ok s).
Definition volume_body (xm po pn : v3) (v : R) : R := v + dot3 (triangle3_normal po pn xm) xm.
Definition polyhedron_volume (dbg : bool) (p : polyhedron) : outcome R :=
  bind (faces dbg volume_body p 0) (fun v => Ok (Rabs v / 3)).
(** centroid 68-121; state (cx, nsum, v); a1 *= a1 is element-wise (C28: a *= a on the same object is element-wise too) *)
Definition pcentroid_body (xm po pn : v3) (s : v3 * v3 * R) : v3 * v3 * R :=
  let '(cx, nsum, v) := s in
  let n := triangle3_normal po pn xm in
  let a1 := add3 po pn in let a2 := add3 pn xm in let a3 := add3 xm po in
  let prod := add3 (add3 (mul3 a1 a1) (mul3 a2 a2)) (mul3 a3 a3) in
  (add3 cx (mul3 prod n), add3 nsum n, v + dot3 n xm).
Definition polyhedron_centroid (dbg : bool) (p : polyhedron) : outcome v3 :=
  bind (faces dbg pcentroid_body p (zero3, zero3, 0)) (fun s => let '(cx, _, v) := s in Ok (div3 cx (8 * v))).
(** midpoint 126-148 *)
Definition polyhedron_midpoint (dbg : bool) (p : polyhedron) : outcome v3 :=
  bind (fold_left (fun s pts => bind s (fun cx => bind (average3 dbg pts) (fun xm => Ok (add3 cx xm)))) p (Ok zero3))
       (fun cx => Ok (div3 cx (INR (length p)))).

(** hexahedron: centroid__ 34-68, centroid_ 71-84, centroid 96-127, midpoint 132-145, volume 151-172 *)
Definition hexc_body (vm v1 v2 : v3) (s : v3 * v3 * R) : v3 * v3 * R :=
  let '(cx, nsum, vol) := s in
  let n := triangle3_normal v1 v2 vm in
  let comp (f : v3 -> R) := f cx + (sqr (f v1 + f v2) + sqr (f v2 + f vm) + sqr (f vm + f v1)) * f n in
  (V3 (comp x3) (comp y3) (comp z3), add3 nsum n, vol + dot3 n vm).
Definition hex_face (p0 p1 p2 p3 : v3) (s : v3 * v3 * R) : v3 * v3 * R :=
  pairs (hexc_body (quad3_midpoint p0 p1 p2 p3)) p0 [p1; p2; p3; p0] s.
Definition hex_centroid (p0 p1 p2 p3 p4 p5 p6 p7 : v3) : v3 :=
  let s := (zero3, zero3, 0) in
  let s := hex_face p0 p1 p2 p3 s in
  let s := hex_face p4 p7 p6 p5 s in
  let s := hex_face p0 p4 p5 p1 s in
  let s := hex_face p1 p5 p6 p2 s in
  let s := hex_face p2 p6 p7 p3 s in
  let s := hex_face p3 p7 p4 p0 s in
  let '(cx, _, v) := s in div3 cx (8 * v).
Definition hex_midpoint (p0 p1 p2 p3 p4 p5 p6 p7 : v3) : v3 :=
  let e := 1 / 8 in
  let f (c : v3 -> R) := e * (c p0 + c p1 + c p2 + c p3 + c p4 + c p5 + c p6 + c p7) in V3 (f x3) (f y3) (f z3).
Definition hex_volume (p0 p1 p2 p3 p4 p5 p6 p7 : v3) : R :=
  let d20 := sub3 p2 p0 in let d50 := sub3 p5 p0 in let d61 := sub3 p6 p1 in
  let d63 := sub3 p6 p3 in let d64 := sub3 p6 p4 in let d70 := sub3 p7 p0 in
  let d61_d70 := add3 d61 d70 in let d63_d50 := add3 d63 d50 in let d64_d20 := add3 d64 d20 in
  let det := Rabs (triple_product d61_d70 d63 d20) + Rabs (triple_product d70 d63_d50 d64)
           + Rabs (triple_product d61 d50 d64_d20) in
  det / 12.

(** geometry/normal.h: two dimensions 24-32, three dimensions 39-49; both are functions of two points *)
Definition geom_normal2 (a b : v2) : v2 := V2 (y2 a - y2 b) (x2 b - x2 a).
Definition geom_normal3 (a b : v3) : v3 :=
  V3 (y3 a * z3 b - z3 a * y3 b) (z3 a * x3 b - x3 a * z3 b) (x3 a * y3 b - y3 a * x3 b).
