(** Derivatives for the concrete case of C65: z^2 in spherical coordinates. *)
From Verif Require Import Rutil Coord_model Coord_spec Cart_spec.
From Coquelicot Require Import Coquelicot.
Local Open Scope R_scope.
Definition ex2_C := init_Coord (CPars 4 0 0 0) Spherical.
Definition ex2_W (i : d3) : fn3 := fun r t p => match i with D1 => 2 * r * (cos t * cos t) | D2 => - (2 * (r * r) * (cos t * sin t)) | D3 => 0 end.
Definition ex2_w (i j : d3) : R := match i, j with D2, D2 => 8 | _, _ => 0 end.
Lemma ex2_pd i X Y Z : pd (pull ex2_C (fun _ _ z => z * z)) i X Y Z (ex2_W i X Y Z).
Proof. unfold pull, ex2_C, ex2_W. cbn [init_Coord x_of_X tab]. unfold z_ofSpherical. destruct i; cbn [pd]; apply is_derive_Reals; auto_derive; trivial; ring. Qed.
Lemma ex2_dd i j : pd (ex2_W i) j 2 (PI / 2) 0 (ex2_w i j).
Proof. unfold ex2_W, ex2_w. destruct i, j; cbn [pd]; apply is_derive_Reals; auto_derive; trivial; rewrite ?cos_PI2, ?sin_PI2; ring. Qed.
