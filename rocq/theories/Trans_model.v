(** Model of src/utility/Coordinates/transfDerivs.c: 3x3 matrices, inverse Jacobians and second derivatives under coordinate changes.
    doubles and long doubles are reals.  A C array double M[4][4] is used with indices 1..3 only and is a function of two directions.  The result array is taken to be distinct from the argument arrays, as it is in every call in the code base (Coordinates.c:3263,4441,4512,4538,4564,4603, Coordinates_AnsorgNS.c:145,176,201-202, integrals.c:226-242): the C functions store into the result while they still read the arguments. *)
From Verif Require Import Rutil Coord_model.
Local Open Scope R_scope.
Definition mat := d3 -> d3 -> R.
Definition ten := d3 -> d3 -> d3 -> R.
(** the loop  for(k=1;k<=3;k++) *)
Definition each : list d3 := D1 :: D2 :: D3 :: nil.
Definition acc (f : d3 -> R) (s : R) : R := fold_left (fun s k => s + f k) each s.
(** j<=k as numbers *)
Definition leb3 (j k : d3) : bool := match j, k with D1, _ | D2, D2 | D2, D3 | D3, D3 => true | _, _ => false end.
(** sgrid_main.h:89 *)
Definition dequaleps : R := / 10000000000.
(** transfDerivs.c:82-94 DetOf3Dmatrix; the same expression is at 30-35 *)
Definition DetOf3Dmatrix (M : mat) : R :=
  M D1 D1 * M D2 D2 * M D3 D3 - M D1 D3 * M D2 D2 * M D3 D1 + M D1 D2 * M D2 D3 * M D3 D1 + M D1 D3 * M D2 D1 * M D3 D2 - M D1 D1 * M D2 D3 * M D3 D2 - M D1 D2 * M D2 D1 * M D3 D3.
(** transfDerivs.c:21-56 dXdx_from_dxdX *)
Definition dXdx_from_dxdX (m : mat) : mat :=
  let DetM := DetOf3Dmatrix m in
  let DetM := if Req_EM_T DetM 0 then dequaleps * dequaleps * dequaleps else DetM in
  fun i j => match i, j with
  | D1, D1 => (- (m D2 D3 * m D3 D2) + m D2 D2 * m D3 D3) / DetM
  | D1, D2 => (m D1 D3 * m D3 D2 - m D1 D2 * m D3 D3) / DetM
  | D1, D3 => (- (m D1 D3 * m D2 D2) + m D1 D2 * m D2 D3) / DetM
  | D2, D1 => (m D2 D3 * m D3 D1 - m D2 D1 * m D3 D3) / DetM
  | D2, D2 => (- (m D1 D3 * m D3 D1) + m D1 D1 * m D3 D3) / DetM
  | D2, D3 => (m D1 D3 * m D2 D1 - m D1 D1 * m D2 D3) / DetM
  | D3, D1 => (- (m D2 D2 * m D3 D1) + m D2 D1 * m D3 D2) / DetM
  | D3, D2 => (m D1 D2 * m D3 D1 - m D1 D1 * m D3 D2) / DetM
  | D3, D3 => (- (m D1 D2 * m D2 D1) + m D1 D1 * m D2 D2) / DetM
  end.
(** transfDerivs.c:58-61 dxdX_from_dXdx, 64-67 inverse3Dmatrix_from_3Dmatrix *)
Definition dxdX_from_dXdx : mat -> mat := dXdx_from_dxdX.
Definition inverse3Dmatrix_from_3Dmatrix : mat -> mat := dXdx_from_dxdX.
(** transfDerivs.c:69-80 *)
Definition transpose3Dmatrix_from_3Dmatrix (M : mat) : mat := fun i j => M j i.
(** transfDerivs.c:96-106 *)
Definition product_of_3Dmatrices (A B : mat) : mat := fun i j => acc (fun k => A i k * B k j) 0.
(** transfDerivs.c:110-130 ddXdxdx_from_dXdx_ddxdXdX; entries with k<j are not written (None), and only entries of ddxdXdX with l>=m are read *)
Definition ddXdxdx_from_dXdx_ddxdXdX (dXdx : mat) (ddxdXdX : ten) (i j k : d3) : option R :=
  if leb3 j k then Some (
    fold_left (fun s n => fold_left (fun s m => fold_left (fun s l =>
      let h := if leb3 m l then ddxdXdX n m l else ddxdXdX n l m in s - dXdx i n * dXdx m j * dXdx l k * h) each s) each s) each 0)
  else None.
(** transfDerivs.c:146-159 dxdX_from_dxdU_dUdX *)
Definition dxdX_from_dxdU_dUdX (dxdU dUdX : mat) : mat := fun i m => acc (fun n => dxdU i n * dUdX n m) 0.
(** transfDerivs.c:163-189 ddxdXdX_from_dxdU_dUdX_ddxdUdU_ddUdXdX *)
Definition ddxdXdX_from_dxdU_dUdX_ddxdUdU_ddUdXdX (dxdU dUdX : mat) (ddxdUdU ddUdXdX : ten) (i m n : d3) : option R :=
  if leb3 m n then
    let '(sum1, sum2) := fold_left (fun '(s1, s2) j => (s1 + dxdU i j * ddUdXdX j m n,
      fold_left (fun s k => let h := if leb3 j k then ddxdUdU i j k else ddxdUdU i k j in s + dUdX j m * dUdX k n * h) each s2)) each (0, 0) in
    Some (sum1 + sum2)
  else None.
(** transfDerivs.c:193-240 check_box_dx_dX: [None] is the NULL pointer box->dx_dX[1][1]; the printing is left out *)
Definition check_box_dx_dX (dx_dX : option (d3 -> d3 -> fn3)) (C : coords) (X Y Z : R) : R :=
  match dx_dX with None => - 1 | Some J =>
    let dXdx := dXdx_from_dxdX (fun k l => J k l X Y Z) in
    sqrt (fold_left (fun s k => fold_left (fun s l => let temp := dXdx k l - dX_dx C k l X Y Z in s + temp * temp) each s) each 0) end.
