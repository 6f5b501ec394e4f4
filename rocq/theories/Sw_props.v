(** C107: scalar waves: energy, exact solutions, faces. *)
From Verif Require Import Rutil Coord_model Coord_spec Adm_spec Adm2_proofs Bh_proofs Ks_proofs Sw_model Sw_spec.
From Coq Require Import List Arith Lia.
Import ListNotations.
Local Open Scope R_scope.
Lemma dv f x l m : l = m -> derivable_pt_lim f x l -> derivable_pt_lim f x m. Proof. now intros <-. Qed.
Lemma dx f g x l : (forall x, f x = g x) -> derivable_pt_lim f x l -> derivable_pt_lim g x l.
Proof. intros E D eps P. destruct (D eps P) as (d & H). exists d. intros t T L. rewrite <- !E. now apply H. Qed.
Lemma d_sq f x l : derivable_pt_lim f x l -> derivable_pt_lim (fun t => f t * f t) x (2 * f x * l).
Proof. intros D. eapply dv; [|apply (derivable_pt_lim_mult f f); exact D]. ring. Qed.
Lemma d_exp f x l : derivable_pt_lim f x l -> derivable_pt_lim (fun t => exp (f t)) x (exp (f x) * l).
Proof. intros D. apply (derivable_pt_lim_comp f exp); [exact D|apply derivable_pt_lim_exp]. Qed.
Lemma pd_chain (phi : R -> R) (f : fn3) k X Y Z l m : derivable_pt_lim phi (f X Y Z) m -> pd f k X Y Z l -> pd (fun x y z => phi (f x y z)) k X Y Z (m * l).
Proof. intros P. destruct k; cbn [pd]; intros D; [apply (derivable_pt_lim_comp (fun t => f t Y Z) phi)|apply (derivable_pt_lim_comp (fun t => f X t Z) phi)|apply (derivable_pt_lim_comp (fun t => f X Y t) phi)]; auto. Qed.
(** ** energy *)
Section E.
Variables (nl : R) (psi psidot : fn4) (g : d3 -> fn4) (t x y z : R) (h q l : d3 -> R).
(** g is the gradient of psi (that it is enters only through M), h its derivatives; q is the gradient of psidot *)
Hypothesis (H : forall k, pd (g k t) k x y z (h k)) (Q : forall k, pd (psidot t) k x y z (q k)) (M : forall k, pt (g k) t x y z (q k)).
Hypothesis (E1 : pt psi t x y z (fst (sw_evolve nl 0 0 0 (psi t x y z) (psidot t x y z) (h D1) (h D2) (h D3)))) (E2 : pt psidot t x y z (snd (sw_evolve nl 0 0 0 (psi t x y z) (psidot t x y z) (h D1) (h D2) (h D3)))).
Hypothesis (L : forall k, pd (fun x y z => psidot t x y z * g k t x y z) k x y z (l k)).
Theorem C107_energy : pt (fun t x y z => sw_rho nl (psi t x y z) (psidot t x y z) (g D1 t x y z) (g D2 t x y z) (g D3 t x y z)) t x y z (S3 l).
Proof.
  unfold sw_evolve, rhs_step in E1, E2. destruct (Req_EM_T 0 0) as [_|N]; [|now elim N]. cbn [fst snd sw_rhs] in E1, E2.
  assert (EL : forall k, l k = q k * g k t x y z + psidot t x y z * h k) by (intros k; eapply pd_unique; [apply L|apply pd_mult; [apply Q|apply H]]).
  unfold pt in *. set (p := fun s => psi s x y z) in *. set (d := fun s => psidot s x y z) in *.
  assert (P : 0 < 1 + p t * p t) by (pose proof (Rle_0_sqr (p t)); unfold Rsqr in *; lra).
  assert (LN : derivable_pt_lim (fun s => ln (1 + p s * p s)) t (/ (1 + p t * p t) * (0 + 2 * p t * d t))).
  { apply (derivable_pt_lim_comp (fun s => 1 + p s * p s) ln); [apply (derivable_pt_lim_plus (fun _ => 1) (fun s => p s * p s)); [apply derivable_pt_lim_const|apply d_sq, E1]|apply derivable_pt_lim_ln, P]. }
  unfold sw_rho. fold (p t) in *. fold (d t) in *.
  eapply dv; [|apply (derivable_pt_lim_plus (fun s => 5 / 10 * (d s * d s + g D1 s x y z * g D1 s x y z + g D2 s x y z * g D2 s x y z + g D3 s x y z * g D3 s x y z)) (fun s => nl * (p s * p s - ln (1 + p s * p s)) * (5 / 10)))].
  2: { apply (derivable_pt_lim_scal (fun s => d s * d s + g D1 s x y z * g D1 s x y z + g D2 s x y z * g D2 s x y z + g D3 s x y z * g D3 s x y z)).
    apply (derivable_pt_lim_plus (fun s => d s * d s + g D1 s x y z * g D1 s x y z + g D2 s x y z * g D2 s x y z)); [apply (derivable_pt_lim_plus (fun s => d s * d s + g D1 s x y z * g D1 s x y z)); [apply (derivable_pt_lim_plus (fun s => d s * d s)); [apply d_sq, E2|]|]|].
    - apply (d_sq (fun s => g D1 s x y z)), M. - apply (d_sq (fun s => g D2 s x y z)), M. - apply (d_sq (fun s => g D3 s x y z)), M. }
  2: { eapply dv; [|apply (derivable_pt_lim_mult (fun s => nl * (p s * p s - ln (1 + p s * p s))) (fun _ => 5 / 10)); [apply (derivable_pt_lim_scal (fun s => p s * p s - ln (1 + p s * p s))), (derivable_pt_lim_minus (fun s => p s * p s)); [apply d_sq, E1|apply LN]|apply derivable_pt_lim_const]]. reflexivity. }
  unfold S3. rewrite !EL. cbv beta. fold (d t). field. lra.
Qed.
End E.
Lemma ln_le x : 0 <= x -> 0 <= x - ln (1 + x). Proof. intros P. pose proof (exp_ineq1_le x) as E. assert (ln (1 + x) <= ln (exp x)) as I. { destruct (Rle_lt_or_eq_dec _ _ E) as [L|L]; [left; apply ln_increasing; lra|rewrite L; lra]. } rewrite ln_exp in I. lra. Qed.
Lemma ln_lt x : 0 < x -> 0 < x - ln (1 + x). Proof. intros P. assert (E : 1 + x < exp x) by (apply exp_ineq1; lra). assert (ln (1 + x) < ln (exp x)) as I by (apply ln_increasing; lra). rewrite ln_exp in I. lra. Qed.
Theorem C107_rho_pos nl p d gx gy gz : 0 <= nl -> 0 <= sw_rho nl p d gx gy gz /\ (sw_rho nl p d gx gy gz = 0 -> d = 0 /\ gx = 0 /\ gy = 0 /\ gz = 0 /\ (nl = 0 \/ p = 0)).
Proof.
  intros N. unfold sw_rho. assert (SQ : forall a, 0 <= a * a) by (intros a; apply Rle_0_sqr). pose proof (SQ p) as Sp. pose proof (ln_le (p * p) Sp) as LL. assert (T : 0 <= nl * (p * p - ln (1 + p * p))) by now apply Rmult_le_pos. pose proof (SQ d). pose proof (SQ gx). pose proof (SQ gy). pose proof (SQ gz).
  split; [lra|]. intros E. assert (Z : forall a, a * a = 0 -> a = 0) by (intros a A; now apply Rmult_integral in A as [A|A]). repeat split; try (apply Z; lra).
  destruct (Req_dec p 0) as [P|P]; [now right|]. left. assert (0 < p * p) by (apply Rlt_0_sqr; auto). pose proof (ln_lt (p * p) ltac:(lra)) as LT. assert (nl * (p * p - ln (1 + p * p)) = 0) as F by lra. apply Rmult_integral in F as [F|F]; lra.
Qed.
(** a step with dt adds dt times what is returned for dt=0 *)
Theorem C107_step nl pp pd0 dt p d a b c : dt <> 0 -> let r := sw_evolve nl pp pd0 0 p d a b c in sw_evolve nl pp pd0 dt p d a b c = (pp + dt * fst r, pd0 + dt * snd r).
Proof. intros N. cbv zeta. unfold sw_evolve, rhs_step. destruct (Req_EM_T dt 0); [contradiction|]. destruct (Req_EM_T 0 0) as [_|N0]; [reflexivity|now elim N0]. Qed.
(** ** waves that depend on the radius *)
Lemma rad_pos x y z : off0 x y z -> 0 < radius x y z. Proof. intros O. apply sqrt_lt_R0, O. Qed.
Lemma rad_sq x y z : radius x y z * radius x y z = x * x + y * y + z * z. Proof. apply sqrt_sqrt. pose proof (Rle_0_sqr x). pose proof (Rle_0_sqr y). pose proof (Rle_0_sqr z). unfold Rsqr in *. lra. Qed.
Lemma pd_rad k x y z : off0 x y z -> pd radius k x y z (co k x y z / radius x y z).
Proof.
  intros O. pose proof (rad_pos x y z O) as P. unfold radius in *. eapply pd_val; [|apply (pd_sqrt (fun x y z => x * x + y * y + z * z)); [exact O|apply pd_plus; [apply pd_plus|]; (apply (pd_mult (co D1) (co D1)) || apply (pd_mult (co D2) (co D2)) || apply (pd_mult (co D3) (co D3))); apply pd_co]].
  destruct k; cbn [delta co]; field; lra.
Qed.
Lemma off_open X Y Z : off0 X Y Z -> exists e, 0 < e /\ forall x y z, near e X Y Z x y z -> off0 x y z.
Proof.
  intros O. assert (NZ : X <> 0 \/ Y <> 0 \/ Z <> 0). { destruct (Req_dec X 0) as [A|A]; auto. destruct (Req_dec Y 0) as [B|B]; auto. destruct (Req_dec Z 0) as [C|C]; auto. unfold off0 in O. subst. lra. }
  assert (W : forall a A, A <> 0 -> Rabs (a - A) < Rabs A -> 0 < a * a). { intros a A N H. apply Rlt_0_sqr. intros ->. replace (0 - A) with (- A) in H by ring. rewrite Rabs_Ropp in H. lra. }
  assert (SQ : forall a, 0 <= a * a) by (intros a; apply Rle_0_sqr).
  destruct NZ as [N|[N|N]]; [exists (Rabs X)|exists (Rabs Y)|exists (Rabs Z)]; (split; [now apply Rabs_pos_lt|]); intros x y z (A & B & C); unfold off0; pose proof (SQ x); pose proof (SQ y); pose proof (SQ z); [pose proof (W x X N A)|pose proof (W y Y N B)|pose proof (W z Z N C)]; lra.
Qed.
(** u(r)/r has the Laplacian u''(r)/r *)
Section RADIAL.
Variables (u u1 u2 : R -> R).
Hypothesis (U : forall s, derivable_pt_lim u s (u1 s)) (U1 : forall s, derivable_pt_lim u1 s (u2 s)).
Definition rw : fn3 := fun x y z => u (radius x y z) / radius x y z.
Definition rm (r : R) : R := u1 r / (r * r) - u r / (r * r * r).
Definition rm1 (r : R) : R := u2 r / (r * r) - 3 * u1 r / (r * r * r) + 3 * u r / (r * r * r * r).
Lemma d_rm r : r <> 0 -> derivable_pt_lim rm r (rm1 r).
Proof.
  intros N. assert (I : derivable_pt_lim (fun s => s * s) r (2 * r)) by (eapply dv; [|apply (d_sq (fun s => s)), derivable_pt_lim_id]; ring). assert (I3 : derivable_pt_lim (fun s => s * s * s) r (3 * r * r)) by (eapply dv; [|apply (derivable_pt_lim_mult (fun s => s * s) (fun s => s)); [exact I|apply derivable_pt_lim_id]]; ring).
  unfold rm. eapply dv; [|apply (derivable_pt_lim_minus (fun r => u1 r / (r * r)) (fun r => u r / (r * r * r))); [apply (derivable_pt_lim_div u1 (fun s => s * s)); [apply U1|exact I|]|apply (derivable_pt_lim_div u (fun s => s * s * s)); [apply U|exact I3|]]]; cbv beta; [unfold rm1, Rsqr; field; auto|now repeat apply Rmult_integral_contrapositive_currified|now repeat apply Rmult_integral_contrapositive_currified].
Qed.
Definition rwd (k : d3) : fn3 := fun x y z => rm (radius x y z) * co k x y z.
Lemma pd_rw k x y z : off0 x y z -> pd rw k x y z (rwd k x y z).
Proof.
  intros O. pose proof (rad_pos x y z O) as P. unfold rw. eapply pd_val; [|apply (pd_div (fun x y z => u (radius x y z)) radius); [lra|apply (pd_chain u radius); [apply U|now apply pd_rad]|now apply pd_rad]]. cbv beta. unfold rwd, rm. field. lra.
Qed.
Lemma pd_rwd k x y z : off0 x y z -> pd (rwd k) k x y z (rm (radius x y z) + rm1 (radius x y z) * (co k x y z * co k x y z / radius x y z)).
Proof.
  intros O. pose proof (rad_pos x y z O) as P. unfold rwd. eapply pd_val; [|apply (pd_mult (fun x y z => rm (radius x y z)) (co k)); [apply (pd_chain rm radius); [apply d_rm; lra|now apply pd_rad]|apply pd_co]]. cbv beta. replace (delta k k) with 1 by now destruct k. field. lra.
Qed.
Lemma rw_laplacian x y z : off0 x y z -> exists l1 l2 l3, laplacian rw x y z l1 l2 l3 /\ l1 + l2 + l3 = u2 (radius x y z) / radius x y z.
Proof.
  intros O. pose proof (rad_pos x y z O) as P. destruct (off_open x y z O) as (e & E & W).
  exists (rm (radius x y z) + rm1 (radius x y z) * (x * x / radius x y z)), (rm (radius x y z) + rm1 (radius x y z) * (y * y / radius x y z)), (rm (radius x y z) + rm1 (radius x y z) * (z * z / radius x y z)). split.
  - exists e, rwd. split; [exact E|]. split; [intros k a b c A B C; apply pd_rw, W; repeat split; auto|]. split; [apply (pd_rwd D1), O|]. split; [apply (pd_rwd D2), O|apply (pd_rwd D3), O].
  - transitivity (3 * rm (radius x y z) + rm1 (radius x y z) * ((x * x + y * y + z * z) / radius x y z)); [field; lra|]. rewrite <- rad_sq. unfold rm, rm1. field. lra.
Qed.
End RADIAL.
(** the initial data are an ingoing spherical wave, which solves the linear equation *)
Section SPH.
Variables (A sigma r0 sx sy sz x0 y0 z0 : R).
Hypothesis (HS : sigma <> 0).
Notation sph_wave := (sph_wave A sigma r0).
Definition prof (s : R) : R := A * exp (- (s - r0) ^ 2 / (2 * sigma ^ 2)).
Definition prof1 (s : R) : R := (-1 / (sigma * sigma)) * ((s - r0) * prof s).
Definition prof2 (s : R) : R := (-1 / (sigma * sigma)) * (prof s + (s - r0) * prof1 s).
Lemma d_s0 s : derivable_pt_lim (fun s => s - r0) s 1. Proof. eapply dv; [|apply (derivable_pt_lim_minus (fun s => s) (fun _ => r0)); [apply derivable_pt_lim_id|apply derivable_pt_lim_const]]. ring. Qed.
Lemma d_prof s : derivable_pt_lim prof s (prof1 s).
Proof.
  unfold prof. eapply dv; [|apply (derivable_pt_lim_scal (fun s => exp (- (s - r0) ^ 2 / (2 * sigma ^ 2)))), (d_exp (fun s => - (s - r0) ^ 2 / (2 * sigma ^ 2)))].
  2: { apply (dx (fun s => (- / (2 * sigma ^ 2)) * ((s - r0) * (s - r0)))); [intros; unfold Rdiv; ring|]. apply (derivable_pt_lim_scal (fun s => (s - r0) * (s - r0))), (d_sq (fun s => s - r0)), d_s0. }
  unfold prof1, prof. field. auto.
Qed.
Lemma d_prof1 s : derivable_pt_lim prof1 s (prof2 s).
Proof. unfold prof1. apply (derivable_pt_lim_scal (fun s => (s - r0) * prof s)). eapply dv; [|apply (derivable_pt_lim_mult (fun s => s - r0) prof); [apply d_s0|apply d_prof]]. ring. Qed.
Lemma d_sh f f1 c t : (forall s, derivable_pt_lim f s (f1 s)) -> derivable_pt_lim (fun t => f (c + t)) t (f1 (c + t)).
Proof. intros D. eapply dv; [|apply (derivable_pt_lim_comp (fun t => c + t) f); [apply (derivable_pt_lim_plus (fun _ => c) (fun t => t)); [apply derivable_pt_lim_const|apply derivable_pt_lim_id]|apply D]]. ring. Qed.
Lemma d_sh' f f1 c t : (forall s, derivable_pt_lim f s (f1 s)) -> derivable_pt_lim (fun t => f (t + c)) t (f1 (t + c)).
Proof. intros D. apply (dx (fun t => f (c + t))); [intros; now rewrite Rplus_comm|]. rewrite Rplus_comm. now apply d_sh. Qed.
Theorem C107_spherical x y z : 0 < x * x + y * y + z * z ->
  let i := sw_init true A sigma r0 sx sy sz x0 y0 z0 x y z in
  fst i = sph_wave 0 x y z /\ pt sph_wave 0 x y z (snd i) /\
  forall t, exists v l1 l2 l3 : R, exists vel : fn4, laplacian (sph_wave t) x y z l1 l2 l3 /\ (forall s, pt sph_wave s x y z (vel s x y z)) /\ v = vel t x y z /\
    let r := sw_evolve 0 0 0 0 (sph_wave t x y z) v l1 l2 l3 in pt sph_wave t x y z (fst r) /\ pt vel t x y z (snd r).
Proof.
  intros O. change (off0 x y z) in O. pose proof (rad_pos x y z O) as P. cbv zeta.
  assert (PT : forall s, pt sph_wave s x y z (prof1 (radius x y z + s) / radius x y z)).
  { intros s. unfold pt. apply (dx (fun s => / radius x y z * prof (radius x y z + s))); [intros s'; unfold Sw_spec.sph_wave, prof; unfold Rdiv; ring|]. eapply dv; [|apply (derivable_pt_lim_scal (fun s => prof (radius x y z + s))), d_sh, d_prof]. unfold Rdiv. ring. }
  assert (EF : A * exp (- (radius x y z - r0) * (radius x y z - r0) / (2 * sigma * sigma)) = prof (radius x y z)) by (unfold prof; f_equal; f_equal; field; auto).
  split; [|split].
  - unfold sw_init. cbn [fst]. fold (radius x y z). rewrite EF. unfold Sw_spec.sph_wave, prof. now rewrite Rplus_0_r.
  - unfold sw_init. cbn [snd]. fold (radius x y z). rewrite EF. eapply dv; [|apply PT]. rewrite Rplus_0_r. unfold prof1. field. split; lra.
  - intros t. destruct (rw_laplacian (fun s => prof (s + t)) (fun s => prof1 (s + t)) (fun s => prof2 (s + t))) with (x := x) (y := y) (z := z) as (l1 & l2 & l3 & LA & E); auto. { intros s. apply d_sh', d_prof. } { intros s. apply d_sh', d_prof1. }
    exists (prof1 (radius x y z + t) / radius x y z), l1, l2, l3, (fun s x y z => prof1 (radius x y z + s) / radius x y z). split; [exact LA|]. split; [exact PT|]. split; [reflexivity|].
    unfold sw_evolve, rhs_step. destruct (Req_EM_T 0 0) as [_|N]; [|now elim N]. cbn [fst snd sw_rhs]. split; [apply PT|]. rewrite E. unfold pt.
    apply (dx (fun s => / radius x y z * prof1 (radius x y z + s))); [intros s'; field; lra|]. eapply dv; [|apply (derivable_pt_lim_scal (fun s => prof1 (radius x y z + s))), d_sh, d_prof1]. unfold Rdiv. ring.
Qed.
End SPH.
(** both waveforms: d(r psi)/dt = d(r psi)/dr *)
Theorem C107_ingoing sph A sigma r0 sx sy sz x0 y0 z0 x y z : 0 < x * x + y * y + z * z -> sigma <> 0 -> sx <> 0 -> sy <> 0 -> sz <> 0 ->
  let dat := sw_init sph A sigma r0 sx sy sz x0 y0 z0 in
  exists g, (forall k, pd (fun x y z => radius x y z * fst (dat x y z)) k x y z (g k)) /\ radius x y z * snd (dat x y z) = (x * g D1 + y * g D2 + z * g D3) / radius x y z.
Proof.
  intros O H1 H2 H3 H4. pose proof (rad_pos x y z O) as P. cbv zeta. destruct (off_open x y z O) as (e & He & W). destruct sph.
  - exists (fun k => prof1 A sigma r0 (radius x y z) * (co k x y z / radius x y z)). split.
    + intros k. apply (pd_ext (fun x y z => prof A sigma r0 (radius x y z)) _ _ _ _ _ _ e He); [|apply (pd_chain (prof A sigma r0) radius); [now apply d_prof|now apply pd_rad]].
      intros a b c N. pose proof (rad_pos _ _ _ (W _ _ _ N)). unfold sw_init. cbn [fst]. fold (radius a b c). unfold prof. replace (- (radius a b c - r0) * (radius a b c - r0) / (2 * sigma * sigma)) with (- (radius a b c - r0) ^ 2 / (2 * sigma ^ 2)) by (field; auto). field. lra.
    + unfold sw_init. cbn [snd co]. fold (radius x y z). unfold prof1, prof. replace (- (radius x y z - r0) * (radius x y z - r0) / (2 * sigma * sigma)) with (- (radius x y z - r0) ^ 2 / (2 * sigma ^ 2)) by (field; auto).
      generalize (exp (- (radius x y z - r0) ^ 2 / (2 * sigma ^ 2))). intros E. transitivity (-1 / (sigma * sigma) * ((radius x y z - r0) * (A * E)) * ((x * x + y * y + z * z) / (radius x y z * radius x y z))); [|field; split; lra]. rewrite <- rad_sq. field. split; lra.
  - set (q := fun x y z => - (5 / 10) * ((x - x0) * (x - x0) / (sx * sx) + (y - y0) * (y - y0) / (sy * sy) + (z - z0) * (z - z0) / (sz * sz))).
    set (dq := fun k => match k with D1 => - (x - x0) / (sx * sx) | D2 => - (y - y0) / (sy * sy) | D3 => - (z - z0) / (sz * sz) end).
    assert (D1' : forall a s X, derivable_pt_lim (fun t => (t - a) * (t - a) / (s * s)) X (2 * (X - a) / (s * s))).
    { intros a s X. apply (dx (fun t => / (s * s) * ((t - a) * (t - a)))); [intros; unfold Rdiv; ring|]. eapply dv; [|apply (derivable_pt_lim_scal (fun t => (t - a) * (t - a))), (d_sq (fun t => t - a)), d_s0]. unfold Rdiv. ring. }
    assert (Dq : forall k, pd q k x y z (dq k)).
    { intros k. unfold q. destruct k; cbn [pd dq].
      - eapply dv; [|apply (derivable_pt_lim_scal (fun t => (t - x0) * (t - x0) / (sx * sx) + (y - y0) * (y - y0) / (sy * sy) + (z - z0) * (z - z0) / (sz * sz))), (derivable_pt_lim_plus (fun t => (t - x0) * (t - x0) / (sx * sx) + (y - y0) * (y - y0) / (sy * sy)) (fun _ => (z - z0) * (z - z0) / (sz * sz))); [apply (derivable_pt_lim_plus (fun t => (t - x0) * (t - x0) / (sx * sx)) (fun _ => (y - y0) * (y - y0) / (sy * sy))); [apply D1'|apply derivable_pt_lim_const]|apply derivable_pt_lim_const]]. field. auto.
      - eapply dv; [|apply (derivable_pt_lim_scal (fun t => (x - x0) * (x - x0) / (sx * sx) + (t - y0) * (t - y0) / (sy * sy) + (z - z0) * (z - z0) / (sz * sz))), (derivable_pt_lim_plus (fun t => (x - x0) * (x - x0) / (sx * sx) + (t - y0) * (t - y0) / (sy * sy)) (fun _ => (z - z0) * (z - z0) / (sz * sz))); [apply (derivable_pt_lim_plus (fun _ => (x - x0) * (x - x0) / (sx * sx)) (fun t => (t - y0) * (t - y0) / (sy * sy))); [apply derivable_pt_lim_const|apply D1']|apply derivable_pt_lim_const]]. field. auto.
      - eapply dv; [|apply (derivable_pt_lim_scal (fun t => (x - x0) * (x - x0) / (sx * sx) + (y - y0) * (y - y0) / (sy * sy) + (t - z0) * (t - z0) / (sz * sz))), (derivable_pt_lim_plus (fun _ => (x - x0) * (x - x0) / (sx * sx) + (y - y0) * (y - y0) / (sy * sy)) (fun t => (t - z0) * (t - z0) / (sz * sz))); [apply derivable_pt_lim_const|apply D1']]. field. auto. }
    exists (fun k => A * (exp (q x y z) * dq k)). split.
    + intros k. apply (pd_ext (fun x y z => A * exp (q x y z)) _ _ _ _ _ _ e He).
      * intros a b c N. pose proof (rad_pos _ _ _ (W _ _ _ N)). unfold sw_init. cbn [fst]. fold (radius a b c). fold (q a b c). field. lra.
      * apply pd_scal, (pd_chain exp q); [apply derivable_pt_lim_exp|apply Dq].
    + unfold sw_init. cbn [snd dq]. fold (radius x y z). fold (q x y z). field. repeat split; lra.
Qed.
(** ** testwave *)
Lemma d_tw c s X : derivable_pt_lim (fun X => exp (-10 * ((X - 2 / 10) ^ 2 + c + s))) X (exp (-10 * ((X - 2 / 10) ^ 2 + c + s)) * (-20 * (X - 2 / 10))).
Proof.
  apply (d_exp (fun X => -10 * ((X - 2 / 10) ^ 2 + c + s))). apply (dx (fun X => -10 * ((X - 2 / 10) * (X - 2 / 10) + (c + s)))); [intros; ring|]. eapply dv; [|apply (derivable_pt_lim_scal (fun X => (X - 2 / 10) * (X - 2 / 10) + (c + s))), (derivable_pt_lim_plus (fun X => (X - 2 / 10) * (X - 2 / 10)) (fun _ => c + s)); [apply (d_sq (fun X => X - 2 / 10)), d_s0|apply derivable_pt_lim_const]]. ring.
Qed.
Theorem C107_testwave x y z u22 u33 :
  let i := tw_init x y z in fst i = tw_sol 0 x y z /\ pt tw_sol 0 x y z (snd i) /\
  exists ux vel : fn4, (forall t a, pd (tw_sol t) D1 a y z (ux t a y z)) /\ (forall t, pt tw_sol t x y z (vel t x y z)) /\
    forall t, exists u11, pd (ux t) D1 x y z u11 /\ let r := tw_rhs (tw_sol t x y z) (vel t x y z) u11 u22 u33 in pt tw_sol t x y z (fst r) /\ pt vel t x y z (snd r).
Proof.
  cbv zeta. set (w := fun s => exp (-10 * ((s - 2 / 10) ^ 2 + y ^ 2 + z ^ 2))). set (w1 := fun s => w s * (-20 * (s - 2 / 10))). set (w2 := fun s => w1 s * (-20 * (s - 2 / 10)) + w s * -20).
  assert (Dw : forall s, derivable_pt_lim w s (w1 s)) by (intros s; apply d_tw).
  assert (Dw1 : forall s, derivable_pt_lim w1 s (w2 s)). { intros s. unfold w1. apply (derivable_pt_lim_mult w (fun s => -20 * (s - 2 / 10))); [apply Dw|]. eapply dv; [|apply (derivable_pt_lim_scal (fun s => s - 2 / 10)), d_s0]. ring. }
  assert (SX : forall f f1 c X, (forall s, derivable_pt_lim f s (f1 s)) -> derivable_pt_lim (fun X => f (X - c)) X (f1 (X - c))) by (intros f f1 c X D; eapply dv; [|apply (derivable_pt_lim_comp (fun X => X - c) f); [apply (d_s0 c X)|apply D]]; ring).
  assert (ST : forall f f1 c t, (forall s, derivable_pt_lim f s (f1 s)) -> derivable_pt_lim (fun t => f (c - t)) t (- f1 (c - t))) by (intros f f1 c t D; eapply dv; [|apply (derivable_pt_lim_comp (fun t => c - t) f); [apply (derivable_pt_lim_minus (fun _ => c) (fun t => t)); [apply derivable_pt_lim_const|apply derivable_pt_lim_id]|apply D]]; ring).
  assert (EW : forall t a, tw_sol t a y z = w (a - t)) by (intros; unfold tw_sol, w; f_equal; f_equal; f_equal; f_equal; ring).
  assert (PT : forall t, pt tw_sol t x y z (- w1 (x - t))) by (intros t; unfold pt; apply (dx (fun t => w (x - t))); [intros; symmetry; apply EW|now apply ST]).
  split; [|split].
  - unfold tw_init, tw_sol. cbn [fst]. f_equal. ring.
  - eapply dv; [|apply PT]. unfold tw_init. cbn [snd]. unfold w1, w. rewrite Rminus_0_r. replace (-10 * ((x - 2 / 10) * (x - 2 / 10) + y * y + z * z)) with (-10 * ((x - 2 / 10) ^ 2 + y ^ 2 + z ^ 2)) by ring. ring.
  - exists (fun t a b c => w1 (a - t)), (fun t a b c => - w1 (a - t)). split; [|split].
    + intros t a. cbn [pd]. apply (dx (fun a => w (a - t))); [intros; symmetry; apply EW|now apply SX].
    + apply PT.
    + intros t. exists (w2 (x - t)). split; [cbn [pd]; now apply SX|]. unfold tw_rhs. cbn [fst snd]. split; [apply PT|]. unfold pt. eapply dv; [|apply (derivable_pt_lim_opp (fun t => w1 (x - t))), ST, Dw1]. unfold Rdiv. ring.
Qed.
(** ** ConvTest *)
Theorem C107_convtest t x y z : 0 < x * x + y * y + z * z -> exists d, (forall k, pd (ct_sol t) k x y z (d k)) /\ pt ct_sol t x y z (ct_rhs x y z (d D1) (d D2) (d D3)) /\ ct_err t (radius x y z) x y z (ct_sol t x y z) = 0.
Proof.
  intros O. pose proof (rad_pos x y z O) as P.
  (* exponent as a function of s = r + t and n = x / r *)
  set (Q := fun (s n : R) => -10 * (s * s - 12 / 5 * (s * n) + 36 / 25)).
  set (n := x / radius x y z). set (s := radius x y z + t).
  assert (EW : forall t a b c, ct_sol t a b c = exp (Q (radius a b c + t) (a / radius a b c))). { intros. unfold ct_sol, Q. f_equal. replace (24 / 10) with (12 / 5) by field. replace ((12 / 10) ^ 2) with (36 / 25) by field. ring. }
  set (dn := fun k => (delta D1 k * radius x y z - x * (co k x y z / radius x y z)) / (radius x y z * radius x y z)).
  assert (Dn : forall k, pd (fun a b c => a / radius a b c) k x y z (dn k)) by (intros k; apply (pd_div (co D1) radius); [lra|apply pd_co|now apply pd_rad]).
  assert (Ds : forall k, pd (fun a b c => radius a b c + t) k x y z (co k x y z / radius x y z)) by (intros k; eapply pd_val; [|apply pd_plus; [now apply pd_rad|apply pd_const]]; ring).
  exists (fun k => exp (Q s n) * (-10 * (2 * s * (co k x y z / radius x y z) - 12 / 5 * (co k x y z / radius x y z * n + s * dn k)))). split; [|split].
  - intros k. apply (pd_ext' (fun a b c => exp (Q (radius a b c + t) (a / radius a b c)))); [intros; symmetry; apply EW|]. apply (pd_chain exp (fun a b c => Q (radius a b c + t) (a / radius a b c))); [apply derivable_pt_lim_exp|]. unfold Q.
    apply pd_scal. eapply pd_val; [|apply pd_plus; [apply pd_minus; [apply pd_mult; [apply Ds|apply Ds]|apply pd_scal, pd_mult; [apply Ds|apply Dn]]|apply pd_const]]. cbv beta. fold s n. ring.
  - unfold pt. apply (dx (fun t => exp (Q (radius x y z + t) n))); [intros; symmetry; apply EW|]. eapply dv; [|apply (d_exp (fun t => Q (radius x y z + t) n))].
    2: { unfold Q. apply (derivable_pt_lim_scal (fun t => (radius x y z + t) * (radius x y z + t) - 12 / 5 * ((radius x y z + t) * n) + 36 / 25)). apply (derivable_pt_lim_plus (fun t => (radius x y z + t) * (radius x y z + t) - 12 / 5 * ((radius x y z + t) * n)) (fun _ => 36 / 25)); [|apply derivable_pt_lim_const].
      assert (DS : derivable_pt_lim (fun t => radius x y z + t) t 1) by (eapply dv; [|apply (derivable_pt_lim_plus (fun _ => radius x y z) (fun t => t)); [apply derivable_pt_lim_const|apply derivable_pt_lim_id]]; ring).
      apply (derivable_pt_lim_minus (fun t => (radius x y z + t) * (radius x y z + t)) (fun t => 12 / 5 * ((radius x y z + t) * n))); [apply (d_sq (fun t => radius x y z + t)), DS|]. apply (derivable_pt_lim_scal (fun t => (radius x y z + t) * n)), (derivable_pt_lim_mult (fun t => radius x y z + t) (fun _ => n)); [apply DS|apply derivable_pt_lim_const]. }
    fold s. unfold ct_rhs. fold (radius x y z). generalize (exp (Q s n)). intros E.
    assert (S1 : S3 (fun k => co k x y z * co k x y z) = radius x y z * radius x y z) by (rewrite rad_sq; reflexivity). assert (S2 : S3 (fun k => dn k * co k x y z) = 0). { transitivity ((x * radius x y z - x / radius x y z * S3 (fun k => co k x y z * co k x y z)) / (radius x y z * radius x y z)); [unfold S3, dn; cbn [delta co]; field; lra|]. rewrite S1. field. lra. }
    transitivity (E * (-10 * ((2 * s - 12 / 5 * n) * (S3 (fun k => co k x y z * co k x y z) / (radius x y z * radius x y z)) - 12 / 5 * s * (S3 (fun k => dn k * co k x y z) / radius x y z)))); [rewrite S1, S2; field; lra|]. unfold S3. cbn [co]. field. lra.
  - unfold ct_err, ct_sol, ct_f. fold (radius x y z). match goal with |- exp ?a - exp ?b = 0 => replace a with b by (field; lra) end. ring.
Qed.
(** ** faces *)
Lemma upd_list l : forall u q, fold_left (fun u p => upd u p 0) l u q = if in_dec Nat.eq_dec q l then 0 else u q.
Proof.
  induction l as [|p l IH]; intros u q; [reflexivity|]. cbn [fold_left]. rewrite IH. destruct (in_dec Nat.eq_dec q l) as [I|I].
  - destruct (in_dec Nat.eq_dec q (p :: l)) as [J|J]; [reflexivity|]. elim J. now right.
  - unfold upd. destruct (Nat.eqb_spec q p) as [->|N]; (destruct (in_dec Nat.eq_dec _ (p :: l)) as [J|J]; [try reflexivity|try reflexivity]). + elim J. now left. + destruct J as [J|J]; [congruence|contradiction].
Qed.
Lemma fold_flat {A} (P : A -> list nat) l : forall u, fold_left (fun u k => fold_left (fun u p => upd u p 0) (P k) u) l u = fold_left (fun u p => upd u p 0) (flat_map P l) u.
Proof. induction l as [|a l IH]; intros u; [reflexivity|]. cbn [fold_left flat_map]. now rewrite fold_left_app, IH. Qed.
Lemma loop2_flat m l P u : loop2 m l P u = fold_left (fun u p => upd u p 0) (flat_map (fun k => flat_map (fun j => P j k) (seq 0 l)) (seq 0 m)) u.
Proof. unfold loop2. rewrite <- (fold_flat (fun k => flat_map (fun j => P j k) (seq 0 l))). generalize (seq 0 m). intros s. revert u. induction s as [|k s IH]; intros u; [reflexivity|]. cbn [fold_left]. now rewrite (fold_flat (fun j => P j k)), IH. Qed.
Lemma loop2_at m l P u q : ((exists j k, (j < l)%nat /\ (k < m)%nat /\ In q (P j k)) -> loop2 m l P u q = 0) /\ (~ (exists j k, (j < l)%nat /\ (k < m)%nat /\ In q (P j k)) -> loop2 m l P u q = u q).
Proof.
  rewrite loop2_flat, upd_list. destruct (in_dec _ q _) as [I|I]; split; auto.
  - intros N. elim N. apply in_flat_map in I as (k & K & I). apply in_flat_map in I as (j & J & I). apply in_seq in K, J. exists j, k. repeat split; auto; lia.
  - intros (j & k & J & K & Q). elim I. apply in_flat_map. exists k. split; [apply in_seq; lia|]. apply in_flat_map. exists j. split; [apply in_seq; lia|auto].
Qed.
Lemma Ix_inj n1 n2 i j k i' j' k' : (i < n1)%nat -> (i' < n1)%nat -> (j < n2)%nat -> (j' < n2)%nat -> Ix n1 n2 i j k = Ix n1 n2 i' j' k' -> i = i' /\ j = j' /\ k = k'.
Proof.
  unfold Ix. intros A B C D E. assert (E1 : i = i'). { pose proof (Nat.mod_unique (i + n1 * (j + n2 * k)) n1 (j + n2 * k) i A ltac:(lia)). pose proof (Nat.mod_unique (i' + n1 * (j' + n2 * k')) n1 (j' + n2 * k') i' B ltac:(lia)). congruence. }
  subst i'. assert (E2 : (j + n2 * k = j' + n2 * k')%nat) by nia. assert (E3 : j = j'). { pose proof (Nat.mod_unique (j + n2 * k) n2 k j C ltac:(lia)). pose proof (Nat.mod_unique (j' + n2 * k') n2 k' j' D ltac:(lia)). congruence. } subst j'. repeat split; nia.
Qed.
Section FACES.
Variables (n1 n2 n3 : nat) (u : nat -> R) (i j k : nat).
Hypothesis (I : (i < n1)%nat) (J : (j < n2)%nat) (K : (k < n3)%nat).
Lemma z1 v : ((i = 0 \/ i = n1 - 1)%nat -> zero_1 n1 n2 n3 v (Ix n1 n2 i j k) = 0) /\ (~ (i = 0 \/ i = n1 - 1)%nat -> zero_1 n1 n2 n3 v (Ix n1 n2 i j k) = v (Ix n1 n2 i j k)).
Proof.
  destruct (loop2_at n3 n2 (fun j k => [Ix n1 n2 (n1 - 1) j k; Ix n1 n2 0 j k]) v (Ix n1 n2 i j k)) as (A & B). split.
  - intros F. apply A. exists j, k. repeat split; auto. destruct F as [->| ->]; cbn [In]; auto.
  - intros F. apply B. intros (j' & k' & J' & K' & [Q|[Q|[]]]); apply Ix_inj in Q; try lia.
Qed.
Lemma z2 v : ((j = 0 \/ j = n2 - 1)%nat -> zero_2 n1 n2 n3 v (Ix n1 n2 i j k) = 0) /\ (~ (j = 0 \/ j = n2 - 1)%nat -> zero_2 n1 n2 n3 v (Ix n1 n2 i j k) = v (Ix n1 n2 i j k)).
Proof.
  destruct (loop2_at n3 n1 (fun i k => [Ix n1 n2 i (n2 - 1) k; Ix n1 n2 i 0 k]) v (Ix n1 n2 i j k)) as (A & B). split.
  - intros F. apply A. exists i, k. repeat split; auto. destruct F as [->| ->]; cbn [In]; auto.
  - intros F. apply B. intros (j' & k' & J' & K' & [Q|[Q|[]]]); apply Ix_inj in Q; try lia.
Qed.
Lemma z3 v : ((k = 0 \/ k = n3 - 1)%nat -> zero_3 n1 n2 n3 v (Ix n1 n2 i j k) = 0) /\ (~ (k = 0 \/ k = n3 - 1)%nat -> zero_3 n1 n2 n3 v (Ix n1 n2 i j k) = v (Ix n1 n2 i j k)).
Proof.
  destruct (loop2_at n2 n1 (fun i j => [Ix n1 n2 i j (n3 - 1); Ix n1 n2 i j 0]) v (Ix n1 n2 i j k)) as (A & B). split.
  - intros F. apply A. exists i, j. repeat split; auto. destruct F as [->| ->]; cbn [In]; auto.
  - intros F. apply B. intros (j' & k' & J' & K' & [Q|[Q|[]]]); apply Ix_inj in Q; try lia.
Qed.
(** the faces named are zero afterwards and nothing else changes *)
Theorem C107_faces :
  zero_1 n1 n2 n3 u (Ix n1 n2 i j k) = (if (i =? 0)%nat || (i =? n1 - 1)%nat then 0 else u (Ix n1 n2 i j k)) /\
  zero_out n1 n2 n3 u (Ix n1 n2 i j k) = (if (i =? n1 - 1)%nat then 0 else u (Ix n1 n2 i j k)) /\
  zero_all n1 n2 n3 u (Ix n1 n2 i j k) = (if (i =? 0)%nat || (i =? n1 - 1)%nat || (j =? 0)%nat || (j =? n2 - 1)%nat || (k =? 0)%nat || (k =? n3 - 1)%nat then 0 else u (Ix n1 n2 i j k)).
Proof.
  assert (B : forall a m, ((a =? 0)%nat || (a =? m)%nat)%bool = true <-> (a = 0 \/ a = m)%nat) by (intros; rewrite Bool.orb_true_iff, !Nat.eqb_eq; tauto).
  assert (Z1 : forall u, zero_1 n1 n2 n3 u (Ix n1 n2 i j k) = if ((i =? 0)%nat || (i =? n1 - 1)%nat)%bool then 0 else u (Ix n1 n2 i j k)). { intros v. destruct (z1 v) as (A & C). destruct ((i =? 0)%nat || (i =? n1 - 1)%nat)%bool eqn:E; [apply A; now apply B|apply C; rewrite <- B, E; discriminate]. }
  assert (Z2 : forall u, zero_2 n1 n2 n3 u (Ix n1 n2 i j k) = if ((j =? 0)%nat || (j =? n2 - 1)%nat)%bool then 0 else u (Ix n1 n2 i j k)). { intros v. destruct (z2 v) as (A & C). destruct ((j =? 0)%nat || (j =? n2 - 1)%nat)%bool eqn:E; [apply A; now apply B|apply C; rewrite <- B, E; discriminate]. }
  assert (Z3 : forall u, zero_3 n1 n2 n3 u (Ix n1 n2 i j k) = if ((k =? 0)%nat || (k =? n3 - 1)%nat)%bool then 0 else u (Ix n1 n2 i j k)). { intros v. destruct (z3 v) as (A & C). destruct ((k =? 0)%nat || (k =? n3 - 1)%nat)%bool eqn:E; [apply A; now apply B|apply C; rewrite <- B, E; discriminate]. }
  split; [apply Z1|]. split.
  - destruct (loop2_at n3 n2 (fun j k => [Ix n1 n2 (n1 - 1) j k]) u (Ix n1 n2 i j k)) as (A & C). destruct (Nat.eqb_spec i (n1 - 1)) as [E|E].
    + apply A. exists j, k. repeat split; auto. rewrite E. now left.
    + apply C. intros (j' & k' & J' & K' & [Q|[]]). apply Ix_inj in Q; lia.
  - unfold zero_all. rewrite Z3, Z2, Z1. destruct (i =? 0)%nat, (i =? n1 - 1)%nat, (j =? 0)%nat, (j =? n2 - 1)%nat, (k =? 0)%nat, (k =? n3 - 1)%nat; reflexivity.
Qed.
End FACES.
(** ** cases *)
Example C107_ex_data : off0 2 1 2 /\ radius 2 1 2 = 3 /\ fst (sw_init true 6 1 3 1 1 1 0 0 0 2 1 2) = 2 /\ snd (sw_init true 6 1 2 1 1 1 0 0 0 2 1 2) = - 2 * exp (- 1 / 2).
Proof.
  assert (R3 : radius 2 1 2 = 3) by (unfold radius; replace (2 * 2 + 1 * 1 + 2 * 2) with (3 * 3) by ring; apply sqrt_square; lra). split; [unfold off0; lra|]. split; [exact R3|]. unfold sw_init. cbn [fst snd]. fold (radius 2 1 2). rewrite R3.
  split; [replace (- (3 - 3) * (3 - 3) / (2 * 1 * 1)) with 0 by field; rewrite exp_0; field|]. replace (- (3 - 2) * (3 - 2) / (2 * 1 * 1)) with (- 1 / 2) by field. field.
Qed.
(** psi = x t solves the linear equation, and its energy moves *)
Example C107_ex_energy : let psi := fun t x _ _ : R => x * t in let psidot := fun _ x _ _ : R => x in let g := fun k (t _ _ _ : R) => match k with D1 => t | _ => 0 end in
  pt (fun t x y z => sw_rho 0 (psi t x y z) (psidot t x y z) (g D1 t x y z) (g D2 t x y z) (g D3 t x y z)) 5 3 1 1 5.
Proof.
  cbv zeta. pose proof (C107_energy 0 (fun t x _ _ => x * t) (fun _ x _ _ => x) (fun k t _ _ _ => match k with D1 => t | _ => 0 end) 5 3 1 1 (fun _ => 0) (fun k => match k with D1 => 1 | _ => 0 end) (fun k => match k with D1 => 5 | _ => 0 end)) as T. eapply dv; [|apply T].
  - unfold S3. ring.
  - intros k. apply pd_const.
  - intros k. destruct k; cbn [pd]; [apply derivable_pt_lim_id|apply derivable_pt_lim_const|apply derivable_pt_lim_const].
  - intros k. unfold pt. destruct k; [apply derivable_pt_lim_id|apply derivable_pt_lim_const|apply derivable_pt_lim_const].
  - unfold pt, sw_evolve, rhs_step. destruct (Req_EM_T 0 0) as [_|N]; [|now elim N]. cbn [fst sw_rhs]. eapply dv; [|apply (derivable_pt_lim_scal (fun t => t)), derivable_pt_lim_id]. ring.
  - unfold pt, sw_evolve, rhs_step. destruct (Req_EM_T 0 0) as [_|N]; [|now elim N]. cbn [snd sw_rhs]. eapply dv; [|apply derivable_pt_lim_const]. field.
  - intros k. destruct k; cbn [pd]; [|apply derivable_pt_lim_const|].
    + eapply dv; [|apply (derivable_pt_lim_mult (fun t => t) (fun _ => 5)); [apply derivable_pt_lim_id|apply derivable_pt_lim_const]]. ring.
    + apply derivable_pt_lim_const.
Qed.
Example C107_ex_faces : let u := fun _ => 7 in zero_all 4 5 6 u (Ix 4 5 1 2 3) = 7 /\ zero_all 4 5 6 u (Ix 4 5 1 2 5) = 0 /\ zero_out 4 5 6 u (Ix 4 5 0 2 5) = 7.
Proof. repeat split. Qed.
Print Assumptions C107_energy.
Print Assumptions C107_rho_pos.
Print Assumptions C107_step.
Print Assumptions C107_spherical.
Print Assumptions C107_ingoing.
Print Assumptions C107_testwave.
Print Assumptions C107_convtest.
Print Assumptions C107_faces.
