(* The effective parameters of a core piece and of the core assembled from it.
   /repo/src/constructive_models/CorePiece.cpp: process (21-57), the default of
   get_shape_constants_iec63182 (61-66), and get_shape_constants of the families E, ETD
   (with EC), EL, EFD, EP, RM, PQ, PM, P, U, UR, UT, T, C, UI, EI and PQI;
   /repo/src/constructive_models/Core.cpp: process_data (1683-1862, effective parameters,
   the standard setting and the gapping) and scale_to_stacks (713-744).

   Simplifications, all of them:
   - doubles are real numbers; the code's sums and products carry no rounding;
   - where the arithmetic of the code leaves the finite numbers the model says so in its
     outcome: [Nan] when the stored parameters are NaN, [Outside] when the code divides by
     zero in a place the model does not follow any further;
   - the drum, drum-ring, semi-shielded and molded families are not modelled;
   - dimensions are the flattened map (one number per letter), flatten_dimensions is not;
   - of process_data, only the effective parameters, the setting it writes and the gapping
     it scales are kept; columns and windows of E, U, C and UT are in the last section. *)
From Coq Require Import Reals List Bool String Lra.
Import ListNotations.
Local Open Scope R_scope.
Local Open Scope string_scope.

(* ---------- Dimensions ---------- *)

(* std::map<std::string, double>, CorePiece.cpp:73 and every sibling. *)
Definition dims := string -> option R.

(* operator[] of the map: a missing letter reads as zero, e.g. CorePiece.cpp:140. *)
Definition dim (d : dims) (k : string) : R :=
  match d k with Some v => v | None => 0 end.

(* find(k) == end() || dimensions[k] == 0, CorePiece.cpp:174, 571, 953. *)
Definition missing (d : dims) (k : string) : bool :=
  match d k with
  | None => true
  | Some v => if Req_EM_T v 0 then true else false
  end.

(* find(k) == end() || roundFloat(dimensions[k]) == 0, CorePiece.cpp:1397, 1541; roundFloat
   (support/Utils.cpp:1576) gives zero exactly below half a nanometre. *)
Definition negligible (d : dims) (k : string) : bool :=
  match d k with
  | None => true
  | Some v => if Rlt_dec (Rabs (v * 1000000000)) (1 / 2) then true else false
  end.

(* ---------- Sections ---------- *)

(* What get_shape_constants accumulates: one (l/A, l/A^2) pair per section, and the areas
   the minimum is taken over. *)
Record parts := mkparts { contributions : list (R * R); areas : list R }.

(* lengths[i] / areas[i] and lengths[i] / pow(areas[i], 2), CorePiece.cpp:158-159. *)
Definition straight (s : R * R) : R * R := (fst s / snd s, fst s / (snd s) ^ 2).

(* A family whose sections all carry a length and an area, CorePiece.cpp:145-161. *)
Definition whole (sections : list (R * R)) : parts :=
  mkparts (map straight sections) (map snd sections).

(* The "/ 2" of the half-piece loops, CorePiece.cpp:1421-1422. *)
Definition half (c : R * R) : R * R := (fst c / 2, snd c / 2).
Definition halves (sections : list (R * R)) : parts :=
  mkparts (map (fun s => half (straight s)) sections) (map snd sections).

(* "lengths[i] / areas[i] / 2", "lengths[i] / (2 * pow(areas[i], 2)) / 2" and the minimum
   times two, CorePiece.cpp:351-354 and 443-446. *)
Definition doubled_areas (sections : list (R * R)) : parts :=
  mkparts (map (fun s => (fst s / snd s / 2, fst s / (2 * (snd s) ^ 2) / 2)) sections)
          (map (fun s => 2 * snd s) sections).

Fixpoint total (l : list R) : R := match l with [] => 0 | x :: r => x + total r end.

(* *min_element(areas.begin(), areas.end()), CorePiece.cpp:161; the lists are never empty. *)
Fixpoint smallest (x : R) (l : list R) : R :=
  match l with [] => x | y :: r => smallest (Rmin x y) r end.
Definition minimum (l : list R) : R := match l with [] => 0 | x :: r => smallest x r end.

Definition constant1 (p : parts) : R := total (map fst (contributions p)).
Definition constant2 (p : parts) : R := total (map snd (contributions p)).
Definition minimum_area (p : parts) : R := minimum (areas p).

(* ---------- The families ---------- *)

(* CorePieceE::get_shape_constants, CorePiece.cpp:135-150. *)
Definition e_sections (d : dims) : list (R * R) :=
  let h := dim d "B" - dim d "D" in
  let q := dim d "C" in
  let s := dim d "F" / 2 in
  let p := (dim d "A" - dim d "E") / 2 in
  let a0 := 2 * q * p in
  let a1 := 2 * q * h in
  let a2 := 2 * s * q in
  [(dim d "D", a0); ((dim d "E" - dim d "F") / 2, a1); (dim d "D", a2);
   (PI / 8 * (p + h), (a0 + a1) / 2); (PI / 8 * (s + h), (a1 + a2) / 2)].

(* CorePieceEtd::get_lateral_leg_area, CorePiece.cpp:171-193. *)
Definition etd_leg_area (d : dims) : R :=
  let C := dim d "C" in
  let E := dim d "E" in
  let with_gap := if missing d "G" then false
                  else if Rlt_dec 0 (dim d "G") then true else false in
  let theta := if with_gap then acos (dim d "G" / 2 / (E / 2)) else asin (C / E) in
  let aperture := if with_gap then dim d "G" / 2 else E / 2 * cos theta in
  C * (dim d "A" / 2 - aperture) - (E / 2) ^ 2 / 2 * (2 * theta - sin (2 * theta)).

(* CorePieceEc::get_lateral_leg_area, CorePiece.cpp:468-477. *)
Definition ec_leg_area (d : dims) : R :=
  let C := dim d "C" in
  let E := dim d "E" in
  let theta := asin (C / E) in
  C * (dim d "A" / 2 - E / 2 * cos theta)
    - (E / 2) ^ 2 / 2 * (2 * theta - sin (2 * theta)) - PI * (dim d "s") ^ 2 / 2.

(* CorePieceEtd::get_shape_constants, CorePiece.cpp:226-243; EC inherits it. *)
Definition etd_sections (leg : R) (d : dims) : list (R * R) :=
  let h := dim d "B" - dim d "D" in
  let q := dim d "C" in
  let s := dim d "F" / 2 in
  let s1 := 5959 / 10000 * s in
  let p := leg / dim d "C" in
  let a0 := 2 * q * p in
  let a1 := 2 * q * h in
  let a2 := PI * s ^ 2 in
  [(dim d "D", a0); ((dim d "E" - dim d "F") / 2, a1); (dim d "D", a2);
   (PI / 8 * (p + h), (a0 + a1) / 2); (PI / 8 * (2 * s1 + h), (a1 + a2) / 2)].

(* CorePieceEl::get_shape_constants, CorePiece.cpp:319-344. *)
Definition el_sections (d : dims) : list (R * R) :=
  let a := dim d "A" in let b := dim d "B" in let c := dim d "C" in
  let dd := dim d "D" in let e := dim d "E" in let f := dim d "F" in
  let f2 := dim d "F2" in let r := dim d "R" in
  let a21 := (b - dd) * c in
  let a23 := (f2 - f + PI * f / 2) * (b - dd) in
  let a3 := 1 / 2 * (1 / 4 * PI * f ^ 2 + (f2 - f) * f) in
  let a0 := 1 / 2 * (a - e) * c - 4 * (r ^ 2 - 1 / 4 * PI * r ^ 2) in
  let a1 := 1 / 2 * (c + f2 - f + PI * f / 2) * (b - dd) in
  [(dd, a0); (e / 2 - f / 2, a1); (dd, a3);
   (PI / 8 * (a / 2 - e / 2 + b - dd), (a0 + a21) / 2);
   (PI / 8 * (a3 / f2 + b - dd), (a23 + a3) / 2)].

(* CorePieceEfd::get_shape_constants, CorePiece.cpp:415-439. *)
Definition efd_sections (d : dims) : list (R * R) :=
  let a := dim d "A" in let b := dim d "B" in let c := dim d "C" in
  let dd := dim d "D" in let e := dim d "E" in let f := dim d "F" in
  let f2 := dim d "F2" in let k := dim d "K" in let q := dim d "q" in
  let a0 := c * (a - e) / 2 in
  let a1 := c * (b - dd) in
  let a2 := (f * f2 - 2 * q ^ 2) / 2 in
  [(dd, a0); ((e - f) / 2, a1); (dd, a2);
   (PI / 8 * ((a - e) / 2 + b - dd), (a0 + a1) / 2);
   (PI / 4 * (f / 4 + sqrt (((c - f2 - 2 * k) / 2) ^ 2 + ((b - dd) / 2) ^ 2)), (a1 + a2) / 2)].

(* CorePieceEp::get_shape_constants, CorePiece.cpp:566-609. The second section is the one
   with the logarithm; its area is not among [areas]. *)
Definition ep_parts (d : dims) : parts :=
  let h1 := 2 * dim d "B" in let h2 := 2 * dim d "D" in
  let d1 := dim d "E" in let d2 := dim d "F" in
  let a := dim d "A" in let b := dim d "C" in
  let k := if missing d "K" then dim d "F" / 2 else dim d "K" in
  let a1 := a * b - PI * d1 ^ 2 / 8 - d1 * k in
  let a3 := PI * (d2 / 2) ^ 2 + (k - d2 / 2) * d2 in
  let alpha := atan (dim d "E" / 2 / k) in
  let gamma := sqrt (((PI - alpha) * d1 ^ 2 + 2 * a1) / (4 * (PI - alpha))) in
  let l4 := PI / 2 * (gamma - d1 / 2 + (h1 - h2) / 4) in
  let a4 := 1 / 2 * (a * b - PI / 8 * d1 ^ 2 - d1 * d2 / 2
                     + (PI - alpha) * d1 * (h1 / 2 - h2 / 2)) in
  let l5 := PI / 2 * (29289 / 100000 * (d2 / 2 + k) / 2 + (h1 - h2) / 4) in
  let a5 := PI / 2 * ((d2 / 2 + k) ^ 2 / 4 + (d2 / 2 + k) / 2 * (h1 - h2)) in
  mkparts
    (map half
       [straight (h2, a1);
        (2 / (PI - alpha) / (h1 - h2) * ln (d1 / (d2 / 2 + k)),
         4 * (d1 - (d2 / 2 + k)) / (PI - alpha) ^ 2 / (h1 - h2) ^ 2 / d1 / (d2 / 2 + k));
        straight (h2, a3); straight (l4, a4); straight (l5, a5)])
    [a1; a3; a4; a5].

(* The angles, lengths and areas of CorePieceRm::get_shape_constants, CorePiece.cpp:775-822:
   beta, lmax, a7, f and D, for the subtypes "1" to "4" (any other sets lmax and a7 to 0). *)
Definition rm_beta (d : dims) : R := PI / 2 - asin (dim d "G" / dim d "E").
Definition rm_diagonal (d : dims) : R :=
  sqrt (1 / 4 * ((dim d "E") ^ 2 + (dim d "F") ^ 2)
        - 1 / 2 * dim d "E" * dim d "F" * cos (PI / 2 - rm_beta d)).
Definition rm_lmax (subtype : string) (d : dims) : R :=
  if String.eqb subtype "1" then rm_diagonal d
  else if String.eqb subtype "2" then rm_diagonal d - 0 / (2 * sin (PI / 2 / 2))
  else if String.eqb subtype "3" then
    dim d "G" / 2 + 1 / 2 * (1 - sin (PI / 2 / 2)) * (dim d "E" - dim d "C")
  else if String.eqb subtype "4" then rm_diagonal d
  else 0.
Definition rm_a7 (subtype : string) (d : dims) : R :=
  let d2 := dim d "E" in let d3 := dim d "F" in let c := dim d "C" in let e := dim d "G" in
  let beta := rm_beta d in
  if String.eqb subtype "1" then
    1 / 4 * (beta / 2 * d2 ^ 2 + 1 / 2 * e ^ 2 * tan beta
             - 1 / 2 * e ^ 2 * tan (PI / 2 - PI / 2 / 2) - PI / 4 * d3 ^ 2)
  else if String.eqb subtype "2" then
    1 / 4 * (beta / 2 * d2 ^ 2 - PI / 4 * d3 ^ 2
             + 1 / 2 * (0 ^ 2 - e ^ 2) * tan (PI / 2 - PI / 2 / 2) + 1 / 2 * e ^ 2 * tan beta)
  else if String.eqb subtype "3" then
    1 / 4 * (beta / 2 * d2 ^ 2 - PI / 4 * d3 ^ 2 + 1 / 2 * c ^ 2 * tan (PI / 2 - beta))
  else if String.eqb subtype "4" then
    1 / 4 * (beta / 2 * d2 ^ 2 + 1 / 2 * d2 * d3 * sin (PI / 2 - beta)
             + 1 / 2 * (c - d3) ^ 2 * tan (PI / 2 / 2) - PI / 4 * d3 ^ 2)
  else 0.
(* f = (lmin + lmax) / (2 lmin) and D = a7 / a8, CorePiece.cpp:821-822 and 1129-1133. *)
Definition spread (lmax : R) (d : dims) : R :=
  let lmin := (dim d "E" - dim d "F") / 2 in (lmin + lmax) / (2 * lmin).
Definition share (a7 : R) (d : dims) : R :=
  a7 / (PI / 2 / 8 * ((dim d "E") ^ 2 - (dim d "F") ^ 2)).

(* CorePieceRm::get_shape_constants, CorePiece.cpp:824-860. *)
Definition rm_parts (subtype : string) (d : dims) : parts :=
  let d2 := dim d "E" in let d3 := dim d "F" in let d4 := dim d "H" in
  let a := dim d "J" in
  let h := dim d "B" - dim d "D" in
  let p := sqrt 2 * dim d "J" - dim d "A" in
  let alpha := PI / 2 in
  let beta := rm_beta d in
  let f := spread (rm_lmax subtype d) d in
  let D := share (rm_a7 subtype d) d in
  let a1 := 1 / 2 * a ^ 2 * (1 + tan (beta - PI / 4)) - beta / 2 * d2 ^ 2 - 1 / 2 * p ^ 2 in
  let a3 := PI / 4 * (d3 ^ 2 - d4 ^ 2) in
  let l4 := PI / 4 * (h + a / 2 - d2 / 2) in
  let a4 := 1 / 2 * (a1 + 2 * beta * d2 * h) in
  let l5 := PI / 4 * (d3 + h - sqrt (1 / 2 * (d3 ^ 2 + d4 ^ 2))) in
  let a5 := 1 / 2 * (PI / 4 * (d3 ^ 2 - d4 ^ 2) + 2 * alpha * d3 * h) in
  mkparts
    (map half
       [straight (2 * dim d "D", a1);
        (ln (d2 / d3) * f / (D * PI * h), (1 / d3 - 1 / d2) * f / (D * PI * h) ^ 2);
        straight (2 * dim d "D", a3); straight (l4, a4); straight (l5, a5)])
    [a1; a3; a4; a5].

(* The J and L of a PQ piece, CorePiece.cpp:951-963 and 2563-2572. *)
Definition pq_J (d : dims) : R := if missing d "J" then dim d "F" / 2 else dim d "J".
Definition pq_L (d : dims) : R :=
  if missing d "J" then dim d "F" + (dim d "C" - dim d "F") / 3 else dim d "L".

(* The quantities CorePiecePq (965-977) and CorePiecePqi (2574-2584) both compute: beta,
   alpha, K, f and the area of the lateral legs. *)
Definition pq_beta (d : dims) : R := acos (dim d "G" / dim d "E").
Definition pq_alpha (d : dims) : R := atan (pq_L d / pq_J d).
Definition pq_K (d : dims) : R :=
  let I := dim d "E" * sin (pq_beta d) in
  (1 / 8 * (pq_beta d * (dim d "E") ^ 2 - pq_alpha d * (dim d "F") ^ 2 + dim d "G" * pq_L d - pq_J d * I))
  / (PI / 16 * ((dim d "E") ^ 2 - (dim d "F") ^ 2)).
Definition pq_f (d : dims) : R :=
  let lmin := (dim d "E" - dim d "F") / 2 in
  let lmax := sqrt ((dim d "E") ^ 2 + (dim d "F") ^ 2
                    - 2 * dim d "E" * dim d "F" * cos (pq_alpha d - pq_beta d)) / 2 in
  (lmin + lmax) / (2 * lmin).
Definition pq_a1 (d : dims) : R :=
  dim d "C" * (dim d "A" - dim d "G") - pq_beta d * (dim d "E") ^ 2 / 2
  + 1 / 2 * dim d "G" * (dim d "E" * sin (pq_beta d)).
Definition pq_a2 (thickness : R) (d : dims) : R :=
  PI * pq_K d * dim d "E" * dim d "F" * thickness / (dim d "E" - dim d "F")
  * ln (dim d "E" / dim d "F").
Definition pq_l2 (d : dims) : R :=
  pq_f d * dim d "E" * dim d "F" / (dim d "E" - dim d "F") * (ln (dim d "E" / dim d "F")) ^ 2.

(* CorePiecePq::get_shape_constants, CorePiece.cpp:979-1006. *)
Definition pq_sections (d : dims) : list (R * R) :=
  let h := dim d "B" - dim d "D" in
  let a1 := pq_a1 d in
  let a3 := PI / 4 * (dim d "F") ^ 2 in
  [(2 * dim d "D", a1); (pq_l2 d, pq_a2 h d); (2 * dim d "D", a3);
   (PI / 4 * (h + dim d "A" / 2 - dim d "E" / 2), 1 / 2 * (a1 + 2 * pq_beta d * dim d "E" * h));
   (PI / 4 * (h + (1 - 1 / sqrt 2) * dim d "F"), 1 / 2 * (a3 + 2 * pq_alpha d * dim d "F" * h))].

(* CorePiecePqi::get_shape_constants, CorePiece.cpp:2586-2609. *)
Definition pqi_sections (d : dims) : list (R * R) :=
  let h := dim d "B" - dim d "D" in
  let t := dim d "B2" in
  let a1 := pq_a1 d in
  let a3 := PI / 4 * (dim d "F") ^ 2 in
  [(dim d "D", a1); (dim d "D", a3);
   (pq_l2 d / 2, pq_a2 h d); (pq_l2 d / 2, pq_a2 t d);
   (PI / 8 * (h + dim d "A" / 2 - dim d "E" / 2), (a1 + 2 * pq_beta d * dim d "E" * h) / 2);
   (PI / 8 * (t + dim d "A" / 2 - dim d "E" / 2), (a1 + 2 * pq_beta d * dim d "E" * t) / 2);
   (PI / 8 * (h + (1 - 1 / sqrt 2) * dim d "F"), (a3 + 2 * pq_alpha d * dim d "F" * h) / 2);
   (PI / 8 * (t + (1 - 1 / sqrt 2) * dim d "F"), (a3 + 2 * pq_alpha d * dim d "F" * t) / 2)].

(* CorePiecePm::get_shape_constants, CorePiece.cpp:1102-1158. The opening angle "alpha" is in
   degrees and defaults by subtype; beta and lmax are those of RM. *)
Definition pm_gamma (subtype : string) (d : dims) : R :=
  match d "alpha" with
  | Some v => v
  | None => if String.eqb subtype "1" then 120 else 90
  end / 180 * PI.
Definition pm_a7 (subtype : string) (d : dims) : R :=
  rm_beta d / 8 * (dim d "E") ^ 2 + 1 / 8 * (dim d "G") ^ 2 * tan (rm_beta d)
  - 1 / 8 * (dim d "G") ^ 2 * tan (PI / 2 - pm_gamma subtype d / 2) - PI / 16 * (dim d "F") ^ 2.
Definition pm_parts (subtype : string) (d : dims) : parts :=
  let d1 := dim d "A" in let h1 := 2 * dim d "B" in let h2 := 2 * dim d "D" in
  let d2 := dim d "E" in let d3 := dim d "F" in let d4 := dim d "H" in
  let b := dim d "b" in let t := dim d "t" in
  let alpha := PI / 2 in
  let beta := rm_beta d in
  let g := spread (rm_diagonal d) d in
  let D := share (pm_a7 subtype d) d in
  let a1 := beta / 2 * (d1 ^ 2 - d2 ^ 2) - 2 * b * t in
  let a3 := PI / 4 * (d3 ^ 2 - d4 ^ 2) in
  let l4 := PI / 8 * (h1 - h2 + d1 - d2) in
  let a4 := 1 / 2 * (a1 + 2 * beta * d2 * (h1 - h2)) in
  let l5 := PI / 4 * (d3 + h1 - h2 - sqrt (1 / 2 * (d3 ^ 2 + d4 ^ 2))) in
  let a5 := PI / 8 * (d3 ^ 2 - d4 ^ 2) + alpha * d3 * (h1 - h2) in
  mkparts
    (map half
       [straight (h2, a1);
        (ln (d2 / d3) * g / (D * PI * (h1 - h2) / 2),
         (1 / d3 - 1 / d2) * g / (D * PI * (h1 - h2) / 2) ^ 2);
        straight (h2, a3); straight (l4, a4); straight (l5, a5)])
    [a1; a3; a4; a5].

(* CorePieceP::get_shape_constants, CorePiece.cpp:1256-1311. *)
Definition p_slots (subtype : string) : R :=
  if String.eqb subtype "1" || String.eqb subtype "2" then 2 else 0.
Definition p_parts (subtype : string) (d : dims) : parts :=
  let r4 := dim d "A" / 2 in let r3 := dim d "E" / 2 in
  let r2 := dim d "F" / 2 in let r1 := dim d "H" / 2 in
  let h := dim d "B" - dim d "D" in
  let h2 := 2 * dim d "D" in
  let b := dim d "G" in
  let s1 := r2 - sqrt ((r1 ^ 2 + r2 ^ 2) / 2) in
  let s2 := sqrt ((r3 ^ 2 + r4 ^ 2) / 2) - r3 in
  let n := p_slots subtype in
  let k1 := n * b * (r4 - r3) in
  let k2 := 1 / (1 - n * b / (2 * PI * r3)) in
  let k3 := 1 - n * b / (PI * (r3 + r4)) in
  let a1 := PI * (r4 - r3) * (r4 + r3) - k1 in
  let a3 := PI * (r2 - r1) * (r2 + r1) in
  let l4 := PI / 4 * (2 * s2 + h) in
  let a4 := PI / 2 * (r4 ^ 2 - r3 ^ 2 + 2 * r3 * h) * k3 in
  let l5 := PI / 4 * (2 * s1 + h) in
  let a5 := PI / 2 * (r2 ^ 2 - r1 ^ 2 + 2 * r2 * h) in
  mkparts
    (map half
       [straight (h2, a1);
        (1 / (PI * h) * ln (r3 / r2) * k2, 1 / (2 * (PI * h) ^ 2) * (r3 - r2) / (r3 * r2) * k2);
        straight (h2, a3); straight (l4, a4); straight (l5, a5)])
    [a1; a3; a4; a5].

(* The leg widths (p, s) of a U piece, CorePiece.cpp:1397-1405 and 1967-1974. *)
Definition u_legs (d : dims) : R * R :=
  if negligible d "H" then ((dim d "A" - dim d "E") / 2, (dim d "A" - dim d "E") / 2)
  else (dim d "A" - dim d "E" - dim d "H", dim d "H").

(* The five sections shared by CorePieceU (1407-1417), CorePieceC (1856-1866) and, with its
   own lengths, CorePieceUt (1673-1683). *)
Definition u_like (column yoke h q p s : R) : list (R * R) :=
  let a0 := q * p in
  let a1 := q * h in
  let a2 := s * q in
  [(column, a0); (2 * yoke, a1); (column, a2);
   (PI / 4 * (p + h), (a0 + a1) / 2); (PI / 4 * (s + h), (a1 + a2) / 2)].

Definition u_sections (d : dims) : list (R * R) :=
  let '(p, s) := u_legs d in
  u_like (2 * dim d "D") (dim d "E") (dim d "B" - dim d "D") (dim d "C") p s.

Definition c_sections (d : dims) : list (R * R) :=
  let w := (dim d "A" - dim d "E") / 2 in
  u_like (2 * dim d "D") (dim d "E") (dim d "B" - dim d "D") (dim d "C") w w.

(* CorePieceUt::get_shape_constants, CorePiece.cpp:1662-1683. *)
Definition ut_sections (d : dims) : list (R * R) :=
  u_like (dim d "D") (dim d "E") ((dim d "B" - dim d "D") / 2) (dim d "C")
    (dim d "F") (dim d "A" - dim d "E" - dim d "F").

(* CorePieceUr::get_shape_constants, CorePiece.cpp:1533-1590. The subtype must be "1" to "4":
   any other leaves a1, a3, l4 and l5 uninitialised. *)
Definition ur_yoke (d : dims) : R :=
  if negligible d "E" then
    if negligible d "F" then dim d "A" - dim d "C" - dim d "H"
    else dim d "A" - dim d "F" - dim d "H"
  else dim d "E".
Definition ur_known (subtype : string) : bool :=
  String.eqb subtype "1" || String.eqb subtype "2" || String.eqb subtype "3" || String.eqb subtype "4".
Definition ur_sections (subtype : string) (d : dims) : list (R * R) :=
  let h := dim d "B" - dim d "D" in
  let C := dim d "C" in
  let ring := PI * (dim d "F" / 2) ^ 2 - PI * (dim d "G" / 2) ^ 2 in
  let '(a1, a3, w4, w5) :=
    if String.eqb subtype "1" then (C * dim d "H", PI * (C / 2) ^ 2, dim d "H", C)
    else if String.eqb subtype "2" then (PI * (C / 2) ^ 2, PI * (C / 2) ^ 2, C, C)
    else if String.eqb subtype "3" then (C * dim d "H", PI * (dim d "F" / 2) ^ 2, dim d "H", dim d "F")
    else (ring, ring, C, C) in
  let a2 := C * h in
  [(2 * dim d "D", a1); (2 * ur_yoke d, a2); (2 * dim d "D", a3);
   (PI / 4 * (w4 + h), (a1 + a2) / 2); (PI / 4 * (w5 + h), (a2 + a3) / 2)].

(* CorePieceT::get_shape_constants, CorePiece.cpp:1742-1751. *)
Definition t_sections (d : dims) : list (R * R) :=
  let w := (dim d "A" - dim d "B") / 2 in
  [(2 * PI * (dim d "B" / 2 + w / 2), w * dim d "C")].

(* piece_and_plate_shape_constants, CorePiece.cpp:1923-1945, and e_piece_and_plate (2006-2029):
   the same list with the areas times [m], 1 for UI and 2 for EI. *)
Definition plate_sections (m column yoke q w1 w2 h t : R) : list (R * R) :=
  let a1 := m * q * w1 in
  let a2 := m * q * w2 in
  let ah := m * q * h in
  let at_ := m * q * t in
  [(column, a1); (column, a2); (yoke, ah); (yoke, at_);
   (PI / 8 * (w1 + h), (a1 + ah) / 2); (PI / 8 * (w2 + h), (a2 + ah) / 2);
   (PI / 8 * (w1 + t), (a1 + at_) / 2); (PI / 8 * (w2 + t), (a2 + at_) / 2)].

(* CorePieceUi::get_shape_constants, CorePiece.cpp:1964-1979. *)
Definition ui_sections (d : dims) : list (R * R) :=
  let '(p, s) := u_legs d in
  plate_sections 1 (dim d "D") (dim d "E") (dim d "C") p s (dim d "B" - dim d "D") (dim d "B2").

(* CorePieceEi::get_shape_constants, CorePiece.cpp:2062-2072. *)
Definition ei_sections (d : dims) : list (R * R) :=
  plate_sections 2 (dim d "D") ((dim d "E" - dim d "F") / 2) (dim d "C")
    ((dim d "A" - dim d "E") / 2) (dim d "F" / 2) (dim d "B" - dim d "D") (dim d "B2").

(* ---------- Effective parameters of a piece ---------- *)

(* The families of CorePiece::factory that are modelled. ER, PLANAR_ER, EQ and EER are ETD;
   PLANAR_E and EF are E; PLANAR_EL is EL; LP, EPX, EPC, EPQ, EPW, EPT and LEP are EP. *)
Inductive family :=
  FE | FETD | FEC | FEL | FEFD | FEP | FRM | FPQ | FPM | FP | FU | FUR | FUT | FT | FC | FUI | FEI | FPQI.

(* Settings::get_effective_parameter_standard. *)
Inductive standard := IEC_60205 | IEC_63182.

(* EffectiveParameters: length, area, volume, minimum area. *)
Record parameters := mkparameters { le : R; ae : R; ve : R; amin : R }.

(* What a piece ends up with. *)
Inductive outcome :=
  | Parameters (p : parameters)
  | Refused            (* InvalidInputException, CorePiece.cpp:34, 47 and 424 *)
  | Nan                (* stored without complaint, but not numbers *)
  | Undefined          (* reads an empty optional or uninitialised doubles *)
  | Outside.           (* a division by zero the model does not follow *)

Record shape := mkshape { shape_family : family; subtype : option string; dimensions : dims }.

Definition within (x : R) : bool :=
  if Rle_dec (-(1)) x then if Rle_dec x 1 then true else false else false.
Definition nonzero (x : R) : bool := if Req_EM_T x 0 then false else true.
Definition positive (x : R) : bool := if Rlt_dec 0 x then true else false.

(* Whether the arguments of asin and acos are defined; outside [-1, 1] they give NaN, the
   first area becomes NaN, min_element keeps a NaN in first place, and no comparison with
   zero refuses it. *)
Definition angles_defined (s : shape) : bool :=
  let d := dimensions s in
  match shape_family s with
  | FETD => if (if missing d "G" then false else positive (dim d "G"))
            then within (dim d "G" / 2 / (dim d "E" / 2)) else within (dim d "C" / dim d "E")
  | FEC => within (dim d "C" / dim d "E")
  | FRM | FPM => within (dim d "G" / dim d "E")
  | FPQ | FPQI => within (dim d "G" / dim d "E")
  | _ => true
  end.

(* The divisors that are not areas: the diameters under the logarithm, the thickness of the
   base, the width of the window and the share of the base for the families with a radial
   section, the depth and the window for ETD, the width of the post for EL. *)
Definition divisors_fine (s : shape) : bool :=
  let d := dimensions s in
  let radial := positive (dim d "E") && positive (dim d "F")
                && positive (dim d "B" - dim d "D") && nonzero (dim d "E" - dim d "F") in
  let kind := match subtype s with Some x => x | None => "" end in
  match shape_family s with
  | FETD | FEC => nonzero (dim d "C") && nonzero (dim d "E")
  | FEL => nonzero (dim d "F2")
  | FEP => positive (dim d "E") && positive (dim d "F") && positive (dim d "B" - dim d "D")
           && (if missing d "K" then true else positive (dim d "K"))
  | FRM => radial && nonzero (rm_a7 kind d)
  | FPM => radial && nonzero (pm_a7 kind d)
  | FPQ | FPQI => radial && nonzero (pq_J d)
  | FP => positive (dim d "E") && positive (dim d "F") && positive (dim d "B" - dim d "D")
          && positive (1 - p_slots kind * dim d "G" / (2 * PI * (dim d "E" / 2)))
          && nonzero (dim d "E" / 2 + dim d "A" / 2)
  | _ => true
  end.

(* *get_family_subtype() on an empty optional, CorePiece.cpp:771, 1094, 1250 and 1528, and the
   variables CorePieceUr leaves unset for an unknown subtype (1534-1577). *)
Definition subtype_fine (s : shape) : bool :=
  match shape_family s, subtype s with
  | (FRM | FPM | FP), None => false
  | FUR, None => false
  | FUR, Some x => ur_known x
  | _, _ => true
  end.

(* A pot core without a base: the radial section divides by zero, both constants are
   infinite and positive, the areas are not, and c1^2/c2 is NaN; CorePiece.cpp:1294, 1300, 52. *)
Definition pot_without_base (s : shape) : bool :=
  match shape_family s, subtype s with
  | FP, Some kind =>
      let d := dimensions s in
      positive (dim d "F") && positive (dim d "E" - dim d "F")
      && negb (nonzero (dim d "B" - dim d "D"))
      && positive (1 - p_slots kind * dim d "G" / (2 * PI * (dim d "E" / 2)))
      && nonzero (dim d "E" / 2 + dim d "A" / 2)
      && positive (minimum_area (p_parts kind d))
  | _, _ => false
  end.

(* get_shape_constants, by family. *)
Definition piece_parts (s : shape) : parts :=
  let d := dimensions s in
  let kind := match subtype s with Some x => x | None => "" end in
  match shape_family s with
  | FE => whole (e_sections d)
  | FETD => whole (etd_sections (etd_leg_area d) d)
  | FEC => whole (etd_sections (ec_leg_area d) d)
  | FEL => doubled_areas (el_sections d)
  | FEFD => doubled_areas (efd_sections d)
  | FEP => ep_parts d
  | FRM => rm_parts kind d
  | FPQ => halves (pq_sections d)
  | FPM => pm_parts kind d
  | FP => p_parts kind d
  | FU => halves (u_sections d)
  | FUR => halves (ur_sections kind d)
  | FUT => whole (ut_sections d)
  | FT => whole (t_sections d)
  | FC => halves (c_sections d)
  | FUI => whole (ui_sections d)
  | FEI => whole (ei_sections d)
  | FPQI => whole (pqi_sections d)
  end.

(* The IEC 60205 branch of CorePiece::process, CorePiece.cpp:43-56. *)
Definition from_constants (p : parts) : outcome :=
  let c1 := constant1 p in
  let c2 := constant2 p in
  if Rle_dec c1 0 then Refused
  else if Rle_dec c2 0 then Refused
  else if Rle_dec (minimum_area p) 0 then Refused
  else Parameters (mkparameters (c1 ^ 2 / c2) (c1 / c2) (c1 ^ 3 / c2 ^ 2) (minimum_area p)).

(* The IEC 63182 branch of CorePiece::process, CorePiece.cpp:30-41. *)
Definition from_length_and_area (l a m : R) : outcome :=
  if Rle_dec l 0 then Refused
  else if Rle_dec a 0 then Refused
  else if Rle_dec m 0 then Refused
  else Parameters (mkparameters l a (l * a) m).

(* The chamfer of a ring core, CorePiece.cpp:1776-1787: r0 when present, otherwise R. *)
Definition chamfer (d : dims) : R :=
  match d "r0" with Some v => v | None => dim d "R" end.

(* CorePieceT::get_shape_constants_iec63182, CorePiece.cpp:1761-1790. *)
Definition ring_length (d : dims) : R :=
  PI * (dim d "A" - dim d "B") / ln (dim d "A" / dim d "B").
Definition ring_area (d : dims) : R :=
  let r := chamfer d in
  (dim d "A" - dim d "B") / 2 * dim d "C" - (if Rlt_dec 0 r then (4 - PI) * r * r else 0).

(* get_shape_constants_iec63182: E adds lengths (CorePiece.cpp:152-166), T has the logarithmic
   mean, every other family derives (le, Ae) from the IEC 60205 constants (61-66). *)
Definition process_63182 (s : shape) : outcome :=
  let d := dimensions s in
  match shape_family s with
  | FE =>
      let sections := e_sections d in
      let l := total (map fst sections) in
      let m := minimum (map snd sections) in
      let sla := total (map (fun x => fst x / snd x) sections) in
      if Rle_dec m 0 then Refused
      else if Req_EM_T sla 0 then Outside
      else from_length_and_area l (l / sla) m
  | FT =>
      if positive (dim d "A") && positive (dim d "B") && nonzero (dim d "A" - dim d "B")
      then from_length_and_area (ring_length d) (ring_area d) (ring_area d)
      else Outside
  | _ =>
      let p := piece_parts s in
      if Rle_dec (minimum_area p) 0 then Refused
      else if Req_EM_T (constant2 p) 0 then Outside
      else from_length_and_area (constant1 p ^ 2 / constant2 p) (constant1 p / constant2 p)
             (minimum_area p)
  end.

(* CorePiece::process, CorePiece.cpp:21-57, up to the effective parameters. EFD refuses a
   piece without "q" (422-425). *)
Definition process (std : standard) (s : shape) : outcome :=
  if negb (subtype_fine s) then Undefined
  else if (match shape_family s with FEFD => missing (dimensions s) "q" | _ => false end) then Refused
  else if pot_without_base s then Nan
  else if negb (divisors_fine s) then Outside
  else if negb (angles_defined s) then Nan
  else match std with
       | IEC_60205 => from_constants (piece_parts s)
       | IEC_63182 => process_63182 s
       end.

(* ---------- The core ---------- *)

(* CoreType, Core.cpp:1724-1817. *)
Inductive core_type := Toroidal | Closed_shape | Open_shape | Two_piece_set | Piece_and_plate.

(* MaterialType, Core.cpp:1685 and 1715: powder, tape-wound (nanocrystalline, amorphous) or
   any other. *)
Inductive material := Powder | Tape_wound | Other_material.

(* What scale_to_stacks touches of a gap, Core.cpp:730-741: the depth of its section and its
   area, when present. *)
Record gap := mkgap { gap_depth : option R; gap_area : option R }.

Record core := mkcore {
  core_shape : shape; kind_of_core : core_type; core_material : material;
  stacks : nat; gapping : list gap; effective : option outcome }.

(* Settings: the standard and the stacking factor of tape-wound cores. *)
Record settings := mksettings { the_standard : standard; stacking_factor : R }.

Definition on_parameters (f : parameters -> parameters) (o : outcome) : outcome :=
  match o with Parameters p => Parameters (f p) | other => other end.

(* Core.cpp:1685-1689. *)
Definition standard_of (m : material) : standard :=
  match m with Powder => IEC_63182 | _ => IEC_60205 end.

(* Core.cpp:1715-1722. *)
Definition apply_stacking_factor (kf : R) (m : material) (p : parameters) : parameters :=
  match m with
  | Tape_wound => mkparameters (le p) (ae p * kf) (ve p * kf) (amin p * kf)
  | _ => p
  end.

(* Core.cpp:1724-1817, effective parameters only. *)
Definition assemble (t : core_type) (p : parameters) : parameters :=
  match t with
  | Two_piece_set => mkparameters (2 * le p) (ae p) (2 * ve p) (amin p)
  | _ => p
  end.

(* Core.cpp:713-744. *)
Definition scale_parameters (n : nat) (p : parameters) : parameters :=
  mkparameters (le p) (ae p * INR n) (ve p * INR n) (amin p * INR n).
Definition scale_gap (n : nat) (g : gap) : gap :=
  mkgap (option_map (fun x => x * INR n) (gap_depth g)) (option_map (fun x => x * INR n) (gap_area g)).

(* Core::process_data, Core.cpp:1683-1862; an exception leaves the core as it was, but the
   setting already written. *)
Definition process_data (g : settings) (c : core) : settings * core :=
  let g' := mksettings (standard_of (core_material c)) (stacking_factor g) in
  match process (the_standard g') (core_shape c) with
  | Refused => (g', c)
  | o =>
      let o' := on_parameters (fun p => scale_parameters (stacks c)
                   (assemble (kind_of_core c) (apply_stacking_factor (stacking_factor g) (core_material c) p))) o in
      (g', mkcore (core_shape c) (kind_of_core c) (core_material c) (stacks c)
             (map (scale_gap (stacks c)) (gapping c)) (Some o'))
  end.

(* ---------- Columns and windows across the width ---------- *)

(* A span on the x axis, by its centre and its width. *)
Record span := mkspan { centre : R; width : R }.

(* CorePieceE::process_winding_window and process_columns, CorePiece.cpp:79-131: the window, the
   main column and the two lateral columns. roundFloat (nine decimals) is left out. *)
Definition e_window (d : dims) : span :=
  mkspan (dim d "F" / 2 + (dim d "E" - dim d "F") / 4) ((dim d "E" - dim d "F") / 2).
Definition e_columns (d : dims) : list span :=
  [mkspan 0 (dim d "F");
   mkspan (dim d "E" / 2 + (dim d "A" - dim d "E") / 4) ((dim d "A" - dim d "E") / 2);
   mkspan (- dim d "E" / 2 - (dim d "A" - dim d "E") / 4) ((dim d "A" - dim d "E") / 2)].

(* CorePieceU::process_winding_window and process_columns (CorePiece.cpp:1326-1386), and those
   of CorePieceC (1796-1838): the lateral column repeats the width of the main one. *)
Definition u_window (d : dims) : span :=
  let w := ur_yoke d in mkspan ((dim d "A" - w) / 2 + w / 2) w.
Definition u_columns (d : dims) : list span :=
  let w := if negligible d "H" then (dim d "A" - dim d "E") / 2 else dim d "H" in
  [mkspan 0 w; mkspan ((dim d "A" + dim d "E") / 2) w].
Definition c_window (d : dims) : span :=
  mkspan ((dim d "A" - dim d "E") / 2 + dim d "E" / 2) (dim d "E").
Definition c_columns (d : dims) : list span :=
  let w := (dim d "A" - dim d "E") / 2 in
  [mkspan 0 w; mkspan ((dim d "A" + dim d "E") / 2) w].

(* appendPerColumnWindingWindows (Core.cpp:1602-1637) on the x axis: one more window per
   column away from the axis, on the side of that column. The first column is the main one. *)
Definition per_column_windows (main : span) (columns : list span) : list span :=
  main ::
  flat_map (fun c => if Req_EM_T (centre c) 0 then []
                     else [mkspan ((if Rlt_dec (centre c) 0 then -(1) else 1) * Rabs (centre main)) (width main)])
           (tl columns).
