(** C127, second part: the phase, the cut-offs and the agreement of the equations without spin. *)
From Verif Require Import Rutil Pnco_model Pnco_props.
From Coq Require Import Lia.
From Coquelicot Require Import Coquelicot.
Local Open Scope R_scope.
(** The phase counts from the ascending node in the zx-plane: a body at this phase on the unit circle normal to L, with N = y x L / |y x L| the direction of the node, moves around L with the angular velocity y[1] *)
Theorem C127_phase m1 m2 P (Y : R -> nat -> R) t : let Lx t := Y t 8%nat in let Ly t := Y t 9%nat in let Lz t := Y t 10%nat in let Ph t := Y t 11%nat in let s t := sqrt (Lx t * Lx t + Lz t * Lz t) in
  (forall i, (8 <= i <= 11)%nat -> is_derive (fun t => Y t i) t (rates m1 m2 P (Y t) i)) -> nrm2 (Y t) 7 = 1 -> 0 < Lx t * Lx t + Lz t * Lz t ->
  let x t := cos (Ph t) * (Lz t / s t) + sin (Ph t) * (- Lx t * Ly t / s t) in
  let y t := sin (Ph t) * s t in
  let z t := cos (Ph t) * (- Lx t / s t) + sin (Ph t) * (- Ly t * Lz t / s t) in
  exists dx dy dz, is_derive x t dx /\ is_derive y t dy /\ is_derive z t dz /\
    dx * (Ly t * z t - Lz t * y t) + dy * (Lz t * x t - Lx t * z t) + dz * (Lx t * y t - Ly t * x t) = Y t 1%nat.
Proof.
  intros Lx Ly Lz Ph s D U Q x y z.
  assert (D8 := D 8%nat ltac:(lia)). assert (D9 := D 9%nat ltac:(lia)). assert (D10 := D 10%nat ltac:(lia)). assert (D11 := D 11%nat ltac:(lia)). clear D.
  assert (O : rate m1 m2 P (Y t) 8 * Y t 8%nat + rate m1 m2 P (Y t) 9 * Y t 9%nat + rate m1 m2 P (Y t) 10 * Y t 10%nat = 0) by (cbn [rate]; ring).
  assert (E11 : rates m1 m2 P (Y t) 11 = Y t 1%nat - Y t 9%nat * (Y t 10%nat * rate m1 m2 P (Y t) 8 - Y t 8%nat * rate m1 m2 P (Y t) 10) / (Y t 8%nat * Y t 8%nat + Y t 10%nat * Y t 10%nat)).
  { cbn [rates]. destruct (Req_EM_T (Y t 8%nat) 0) as [A|A]; [|reflexivity]. destruct (Req_EM_T (Y t 10%nat) 0) as [B|B]; [|reflexivity]. exfalso. unfold Lx, Lz in Q. rewrite A, B in Q. lra. }
  rewrite E11 in D11. cbn [rates] in D8, D9, D10. set (d8 := rate m1 m2 P (Y t) 8) in *. set (d9 := rate m1 m2 P (Y t) 9) in *. set (d10 := rate m1 m2 P (Y t) 10) in *.
  change (is_derive Lx t d8) in D8. change (is_derive Ly t d9) in D9. change (is_derive Lz t d10) in D10. set (p := Y t 1%nat - _) in D11. change (is_derive Ph t p) in D11.
  assert (EP : Y t 1%nat = p + Ly t * (Lz t * d8 - Lx t * d10) / (Lx t * Lx t + Lz t * Lz t)) by (unfold p, Lx, Ly, Lz; lra).
  change (nrm2 (Y t) 7) with (Lx t * Lx t + Ly t * Ly t + Lz t * Lz t) in U. change (d8 * Lx t + d9 * Ly t + d10 * Lz t = 0) in O. rewrite EP. clear EP. clearbody p d8 d9 d10 Lx Ly Lz Ph.
  assert (SP : 0 < s t) by (apply sqrt_lt_R0; exact Q). assert (SS : s t * s t = Lx t * Lx t + Lz t * Lz t) by (apply sqrt_sqrt; lra).
  assert (X8 : ex_derive Lx t) by (now exists d8). assert (X9 : ex_derive Ly t) by (now exists d9). assert (X10 : ex_derive Lz t) by (now exists d10). assert (X11 : ex_derive Ph t) by (now exists p).
  assert (V8 : Derive (fun u : R => Lx u) t = d8) by (now apply is_derive_unique). assert (V9 : Derive (fun u : R => Ly u) t = d9) by (now apply is_derive_unique). assert (V10 : Derive (fun u : R => Lz u) t = d10) by (now apply is_derive_unique). assert (V11 : Derive (fun u : R => Ph u) t = p) by (now apply is_derive_unique).
  set (ds := (Lx t * d8 + Lz t * d10) / s t).
  assert (DS : is_derive s t ds). { unfold s. auto_derive; [repeat split; auto; lra|]. rewrite V8, V10. unfold ds. change (sqrt (Lx t * Lx t + Lz t * Lz t)) with (s t). field. lra. }
  assert (XS : ex_derive s t) by (now exists ds). clearbody s. assert (VS : Derive (fun u : R => s u) t = ds) by (now apply is_derive_unique).
  exists (- sin (Ph t) * p * (Lz t / s t) + cos (Ph t) * ((d10 * s t - Lz t * ds) / (s t * s t)) + cos (Ph t) * p * (- Lx t * Ly t / s t) + sin (Ph t) * (((- d8 * Ly t - Lx t * d9) * s t + Lx t * Ly t * ds) / (s t * s t))).
  exists (cos (Ph t) * p * s t + sin (Ph t) * ds).
  exists (- sin (Ph t) * p * (- Lx t / s t) + cos (Ph t) * ((- d8 * s t + Lx t * ds) / (s t * s t)) + cos (Ph t) * p * (- Ly t * Lz t / s t) + sin (Ph t) * (((- d9 * Lz t - Ly t * d10) * s t + Ly t * Lz t * ds) / (s t * s t))).
  split; [|split; [|split]].
  - unfold x. auto_derive; [repeat split; auto; lra|]. rewrite V8, V9, V10, V11, VS. field. lra.
  - unfold y. auto_derive; [repeat split; auto; lra|]. rewrite V11, VS. ring.
  - unfold z. auto_derive; [repeat split; auto; lra|]. rewrite V8, V9, V10, V11, VS. field. lra.
  - unfold x, y, z. rewrite <- SS.
    assert (CS : sin (Ph t) * sin (Ph t) + cos (Ph t) * cos (Ph t) = 1) by (pose proof (sin2_cos2 (Ph t)) as W; unfold Rsqr in W; lra).
    unfold ds. clear - SP SS CS O U.
    set (S := s t) in *. set (a := Lx t) in *. set (b := Ly t) in *. set (c := Lz t) in *. set (C := cos (Ph t)) in *. set (N := sin (Ph t)) in *. clearbody S a b c C N.
    assert (SN : S <> 0) by lra. set (D := (a * d8 + c * d10) / S). assert (DS : D * S = a * d8 + c * d10) by (unfold D; field; exact SN). clearbody D.
    assert (W1 : b * (C * (- a / S) + N * (- b * c / S)) - c * (N * S) = C * (- a * b / S) - N * (c / S)).
    { transitivity (C * (- a * b / S) - N * (c / S) * (b * b + S * S)); [field; exact SN|]. replace (b * b + S * S) with 1 by lra. ring. }
    assert (W2 : c * (C * (c / S) + N * (- a * b / S)) - a * (C * (- a / S) + N * (- b * c / S)) = C * S).
    { transitivity (C * ((a * a + c * c) / S)); [field; exact SN|]. rewrite <- SS. field. exact SN. }
    assert (W3 : a * (N * S) - b * (C * (c / S) + N * (- a * b / S)) = C * (- b * c / S) + N * (a / S)).
    { transitivity (C * (- b * c / S) + N * (a / S) * (b * b + S * S)); [field; exact SN|]. replace (b * b + S * S) with 1 by lra. ring. }
    rewrite W1, W2, W3. clear W1 W2 W3.
    assert (F1 : c / S * (c / S) + a / S * (a / S) = 1). { transitivity ((a * a + c * c) / (S * S)); [field; exact SN|]. rewrite <- SS. field. exact SN. }
    assert (F2 : a * b / S * (a * b / S) + S * S + b * c / S * (b * c / S) = 1). { transitivity (b * b * (c / S * (c / S) + a / S * (a / S)) + S * S); [field; exact SN|]. rewrite F1. lra. }
    assert (F4 : (d10 * S - c * D) / (S * S) * (c / S) - (- d8 * S + a * D) / (S * S) * (a / S) = 0).
    { transitivity (((a * d8 + c * d10) * S - (a * a + c * c) * D) / (S * S * S)); [field; exact SN|]. rewrite <- SS, <- DS. field. exact SN. }
    assert (F5 : - ((- d8 * b - a * d9) * S + a * b * D) / (S * S) * (a * b / S) + D * S - ((- d9 * c - b * d10) * S + b * c * D) / (S * S) * (b * c / S) = 0).
    { transitivity ((b * b * (a * d8 + c * d10) * S + b * d9 * (a * a + c * c) * S - b * b * (a * a + c * c) * D) / (S * S * S) + D * S); [field; exact SN|]. rewrite <- SS, <- DS. transitivity (b * d9 + D * S); [field; exact SN|]. rewrite DS. lra. }
    assert (F6 : - ((d10 * S - c * D) / (S * S)) * (a * b / S) - (- d8 * S + a * D) / (S * S) * (b * c / S) = b * (c * d8 - a * d10) / (S * S)) by (field; exact SN).
    assert (F7 : ((- d8 * b - a * d9) * S + a * b * D) / (S * S) * (c / S) - ((- d9 * c - b * d10) * S + b * c * D) / (S * S) * (a / S) = - (b * (c * d8 - a * d10) / (S * S))) by (field; exact SN).
    transitivity (p * (N * N * (c / S * (c / S) + a / S * (a / S)) + C * C * (a * b / S * (a * b / S) + S * S + b * c / S * (b * c / S)))
      + C * C * (- ((d10 * S - c * D) / (S * S)) * (a * b / S) - (- d8 * S + a * D) / (S * S) * (b * c / S)) - C * N * ((d10 * S - c * D) / (S * S) * (c / S) - (- d8 * S + a * D) / (S * S) * (a / S))
      + N * C * (- ((- d8 * b - a * d9) * S + a * b * D) / (S * S) * (a * b / S) + D * S - ((- d9 * c - b * d10) * S + b * c * D) / (S * S) * (b * c / S))
      - N * N * (((- d8 * b - a * d9) * S + a * b * D) / (S * S) * (c / S) - ((- d9 * c - b * d10) * S + b * c * D) / (S * S) * (a / S))); [field; exact SN|].
    rewrite F1, F2, F4, F5, F6, F7. transitivity ((p + b * (c * d8 - a * d10) / (S * S)) * (N * N + C * C)); [ring|]. rewrite CS. ring.
Qed.
Print Assumptions C127_phase.
(** ** the equation for the frequency *)
Definition setw (y : nat -> R) (w : R) (i : nat) : R := if (i =? 1)%nat then w else y i.
Definition with_eom (P : pnpar) (e : eom) : pnpar := PnPar e (f2 P) (f3 P) (f4 P) (f5 P) (f6 P) (f7 P) (OLS1 P) (OLS2 P) (OLS3 P) (OSS1 P) (v2cut P) (v2trans P) (cutoffP P) (v6cut P).
Definition all_on (P : pnpar) : Prop := f2 P = 1 /\ f3 P = 1 /\ f4 P = 1 /\ f5 P = 1 /\ f6 P = 1 /\ f7 P = 1.
Lemma v1_cube m1 m2 y : 0 < om m1 m2 y -> v1 m1 m2 y * v1 m1 m2 y * v1 m1 m2 y = om m1 m2 y.
Proof. intros Q. unfold v1. rewrite <- !Rpower_plus. replace (1 / 3 + 1 / 3 + 1 / 3) with 1 by field. now apply Rpower_1. Qed.
(** With a cut-off the frequency stops growing where v reaches it *)
Theorem C127_cut m1 m2 P y : 0 < (m1 + m2) * y 1%nat -> let v := Rpower ((m1 + m2) * y 1%nat) (1 / 3) in
  (f2 P = 1 -> v = v2cut P -> eomtype P = Kidder1995_v2cut \/ eomtype P = Buonanno_v2cut -> snd (derivs m1 m2 P y) 1%nat = 0) /\
  (f6 P = 1 -> v = v6cut P -> eomtype P = Kidder1995_v6cut \/ eomtype P = Buonanno_v6cut -> snd (derivs m1 m2 P y) 1%nat = 0).
Proof.
  intros Q v. cbn [derivs snd rates rate]. set (w := renorm y). change v with (v1 m1 m2 w). assert (Q' : 0 < om m1 m2 w) by exact Q. pose proof (vP m1 m2 w) as VP. clear v. split; intros F E T.
  - replace (omfac m1 m2 P w) with 0; [ring|]. symmetry. unfold omfac. cbv zeta. rewrite F, <- E. unfold v2. destruct T as [-> | ->]; apply Rmult_eq_0_compat_r; field; lra.
  - replace (omfac m1 m2 P w) with 0; [ring|]. symmetry. unfold omfac. cbv zeta. rewrite F, <- E. unfold v6, v3. pose proof (v1_cube m1 m2 w Q') as V3. set (v := v1 m1 m2 w) in *.
    assert (Z : 1 - 1 / v ^ 6 * (om m1 m2 w * om m1 m2 w * 1) = 0) by (rewrite <- V3; field; lra). destruct T as [-> | ->]; rewrite Z; ring.
Qed.
Print Assumptions C127_cut.
(** Below the cut-off it changes the equation only beyond the order to which it is known: the relative change is v^5 (A + B v) for the one of Kidder with a cut in v^2, and v^8 times a polynomial in v with one logarithm for the full one with a cut in v^6, with coefficients that do not depend on the frequency *)
Theorem C127_cut_order m1 m2 P y : all_on P -> v2cut P <> 0 -> v6cut P <> 0 ->
  (exists A B, forall w, 0 < (m1 + m2) * w -> let v := Rpower ((m1 + m2) * w) (1 / 3) in
    omfac m1 m2 (with_eom P Kidder1995_v2cut) (setw y w) = omfac m1 m2 (with_eom P Kidder1995) (setw y w) + v ^ 5 * (A + B * v)) /\
  (exists A B C D E F G, forall w, 0 < (m1 + m2) * w -> let v := Rpower ((m1 + m2) * w) (1 / 3) in
    omfac m1 m2 (with_eom P Buonanno_v6cut) (setw y w) = omfac m1 m2 (with_eom P Buonanno2003) (setw y w) + v ^ 8 * (A + B * v + C * v ^ 2 + D * v ^ 3 + (E + F * ln (16 * (v * v))) * v ^ 4 + G * v ^ 5)).
Proof.
  intros (O2 & O3 & O4 & O5 & O6 & O7) N2 N6.
  assert (S : forall w, LS1 (setw y w) = LS1 y /\ LS2 (setw y w) = LS2 y /\ SS (setw y w) = SS y) by (intros w; repeat split).
  set (a3 := - (c3 m1 m2 * LS1 y + c4 m1 m2 * LS2 y - c5)). set (s4 := - c7 m1 m2 * SS y + c8 m1 m2 * LS1 y * LS2 y). set (B2 := 1 / (v2cut P * v2cut P)). set (B6 := 1 / v6cut P ^ 6). split.
  - exists (- B2 * a3), (- B2 * (s4 + (- c2 m1 m2 + B2) * B2)). intros w Q v. assert (Q' : 0 < om m1 m2 (setw y w)) by exact Q. pose proof (v1_cube m1 m2 (setw y w) Q') as V3. change v with (v1 m1 m2 (setw y w)). clear v.
    unfold omfac, with_eom. cbv zeta. cbn [eomtype f2 f3 f4 f5 f6 f7 v2cut v6cut]. rewrite O2, O3, O4. destruct (S w) as (-> & -> & ->). fold s4. fold B2. fold a3. unfold v4, v3, v2. rewrite <- V3. unfold a3, s4. ring.
  - exists (B6 * c2 m1 m2), (- B6 * a3), (- B6 * (c6 m1 m2 + s4)), (B6 * c9 m1 m2), (- B6 * (c10 + c11 m1 m2 + c12 m1 m2 + B6)), (B6 * c13), (- B6 * c14 m1 m2). intros w Q v. assert (Q' : 0 < om m1 m2 (setw y w)) by exact Q. pose proof (v1_cube m1 m2 (setw y w) Q') as V3. change v with (v1 m1 m2 (setw y w)). clear v.
    unfold omfac, with_eom. cbv zeta. cbn [eomtype f2 f3 f4 f5 f6 f7 v2cut v6cut]. rewrite O2, O3, O4, O5, O6, O7. destruct (S w) as (-> & -> & ->). fold s4. fold B6. fold a3. unfold v7, v6, v5, v4, v3, v2. set (lg := ln (16 * (v1 m1 m2 (setw y w) * v1 m1 m2 (setw y w)))). rewrite <- V3. unfold a3, s4. ring.
Qed.
Print Assumptions C127_cut_order.
(** Without spins the three full expansions are the same, up to the rounding of the decimal constants in two of them *)
Theorem C127_spinless m1 m2 P y e : 0 < m1 -> 0 < m2 -> (forall i, (2 <= i <= 7)%nat -> y i = 0) -> 0 < y 1%nat -> e = TaylorT4 \/ e = TaylorT4_bug ->
  Rabs (omfac m1 m2 (with_eom P e) y - omfac m1 m2 (with_eom P Buonanno2003) y) <= / 10 ^ 13 * (Rabs (v2 m1 m2 y * f2 P) + Rabs (v6 m1 m2 y * f6 P)).
Proof.
  intros P1 P2 Z W T. pose proof (vP m1 m2 y) as VP. assert (NU : 0 <= pnu m1 m2 <= 1).
  { unfold pnu, pm. assert (0 < m1 * m2) by (now apply Rmult_lt_0_compat). assert (0 < (m1 + m2) * (m1 + m2)) by (apply Rmult_lt_0_compat; lra). replace (m1 * m2 / (m1 + m2) / (m1 + m2)) with (m1 * m2 / ((m1 + m2) * (m1 + m2))) by (field; lra).
    split; [apply Rlt_le, Rdiv_lt_0_compat; assumption|]. apply Rmult_le_reg_r with ((m1 + m2) * (m1 + m2)); [assumption|]. unfold Rdiv. rewrite Rmult_assoc, Rinv_l by lra. nra. }
  assert (L1 : LS1 y = 0) by (unfold LS1, dot; cbn [Nat.add]; rewrite !(Z 2%nat), !(Z 3%nat), !(Z 4%nat) by lia; ring).
  assert (L2 : LS2 y = 0) by (unfold LS2, dot; cbn [Nat.add]; rewrite !(Z 5%nat), !(Z 6%nat), !(Z 7%nat) by lia; ring).
  assert (L3 : SS y = 0) by (unfold SS, dot; cbn [Nat.add]; rewrite !(Z 2%nat), !(Z 3%nat), !(Z 4%nat) by lia; ring).
  assert (L4 : dot y 1 1 = 0) by (unfold dot; cbn [Nat.add]; rewrite !(Z 2%nat), !(Z 3%nat), !(Z 4%nat) by lia; ring).
  assert (L5 : dot y 4 4 = 0) by (unfold dot; cbn [Nat.add]; rewrite !(Z 5%nat), !(Z 6%nat), !(Z 7%nat) by lia; ring).
  assert (LG : ln (16 * v2 m1 m2 y) = ln 16 + 2 * ln (v1 m1 m2 y)) by (unfold v2; rewrite !ln_mult by (try apply Rmult_lt_0_compat; lra); ring).
  assert (E : omfac m1 m2 (with_eom P e) y - omfac m1 m2 (with_eom P Buonanno2003) y = (743 / 336 - 2.2113095238095237) * (v2 m1 m2 y * f2 P) + (117.72574285227559 - 16447322263 / 139708800 + (match e with TaylorT4 => 0.6037946428571429 - 541 / 896 | _ => 0 end) * (pnu m1 m2 * pnu m1 m2)) * (v6 m1 m2 y * f6 P)).
  { unfold omfac, with_eom, with_chi. cbv zeta. cbn [eomtype f2 f3 f4 f5 f6 f7 OLS1 OLS2 OLS3 OSS1]. rewrite L1, L2, L3, L4, L5, LG.
    assert (ZZ : forall u v : R, 0.5 * (0 / u + 0 / v) = 0 /\ 0.5 * (0 / u - 0 / v) = 0 /\ 0.25 * (0 / u - 0 / v) = 0) by (intros; unfold Rdiv; rewrite !Rmult_0_l; repeat split; lra).
    assert (ZY : forall u v w : R, 0.25 * (0 / u + 2 * 0 / w + 0 / v) = 0 /\ 0.25 * (0 / u - 2 * 0 / w + 0 / v) = 0) by (intros; unfold Rdiv; rewrite ?Rmult_0_r, !Rmult_0_l; repeat split; lra).
    destruct (ZZ (m1 * m1) (m2 * m2)) as (-> & -> & _). destruct (ZZ (m1 * m1 * m1 * m1) (m2 * m2 * m2 * m2)) as (_ & _ & ->). destruct (ZY (m1 * m1 * m1 * m1) (m2 * m2 * m2 * m2) (m1 * m1 * m2 * m2)) as (-> & ->). rewrite !Rmult_0_l.
    destruct T as [-> | ->]; unfold t4, t4_bug, c2, c5, c6, c9, c10, c11, c12, c13, c14; cbv iota; replace (- 2.2113095238095237) with (0 - 2.2113095238095237) by lra.
    - generalize GammaE, (pnu m1 m2), (pd m1 m2), (ln 16), (ln (v1 m1 m2 y)), PI, (v2 m1 m2 y * f2 P), (v3 m1 m2 y * f3 P), (v4 m1 m2 y * f4 P), (v5 m1 m2 y * f5 P), (v6 m1 m2 y * f6 P), (v7 m1 m2 y * f7 P), 2.2113095238095237, 117.72574285227559, 0.6037946428571429. intros. field.
    - generalize GammaE, (pnu m1 m2), (pd m1 m2), (ln 16), (ln (v1 m1 m2 y)), PI, (v2 m1 m2 y * f2 P), (v3 m1 m2 y * f3 P), (v4 m1 m2 y * f4 P), (v5 m1 m2 y * f5 P), (v6 m1 m2 y * f6 P), (v7 m1 m2 y * f7 P), 2.2113095238095237, 117.72574285227559. intros. field. }
  rewrite E. clear E. generalize (v2 m1 m2 y * f2 P), (v6 m1 m2 y * f6 P). intros A B.
  assert (N2 : 0 <= pnu m1 m2 * pnu m1 m2 <= 1) by nra. set (n2 := pnu m1 m2 * pnu m1 m2) in *. clearbody n2.
  eapply Rle_trans; [apply Rabs_triang|]. rewrite !Rabs_mult, Rmult_plus_distr_l. apply Rplus_le_compat; (apply Rmult_le_compat_r; [apply Rabs_pos|]); replace (10 ^ 13) with 10000000000000 by ring; apply Rabs_le; destruct e; lra.
Qed.
Print Assumptions C127_spinless.
(** the hypotheses are met: two equal masses with spins along the orbital angular momentum, at the frequency of the cut-off, circle for ever; a spin in the orbital plane precesses *)
Definition ex_par : pnpar := PnPar Kidder1995_v2cut 1 1 1 1 1 1 1 1 1 1 (Rpower ((1 / 2 + 1 / 2) * (1 / 8)) (1 / 3)) 1 1 1.
Definition ex_Y (t : R) (i : nat) : R := match i with 1%nat => 1 / 8 | 4%nat => 1 / 10 | 7%nat => 1 / 20 | 10%nat => 1 | 11%nat => t / 8 | _ => 0 end.
Definition ex_y (i : nat) : R := match i with 1%nat => 1 / 8 | 2%nat => 1 / 10 | 10%nat => 1 | _ => 0 end.
Lemma ren_ex y : y 8%nat = 0 -> y 9%nat = 0 -> y 10%nat = 1 -> renorm y = y.
Proof. intros A B C. apply FunctionalExtensionality.functional_extensionality. intros k. unfold renorm. rewrite A, B, C. replace (0 * 0 + 0 * 0 + 1 * 1) with 1 by ring. rewrite sqrt_1. destruct (_ && _)%bool; [field|reflexivity]. Qed.
Example C127_ex : solves (1 / 2) (1 / 2) ex_par 0 1 ex_Y /\ 0 < snd (derivs (1 / 2) (1 / 2) ex_par ex_y) 3%nat.
Proof.
  split.
  - intros t i T I. destruct (Nat.eq_dec i 11) as [->|N].
    + unfold derivs, snd. rewrite ren_ex by reflexivity. replace (rates (1 / 2) (1 / 2) ex_par (ex_Y t) 11) with (1 / 8). { cbn [ex_Y]. auto_derive; [auto|]. field. }
      cbn [rates ex_Y]. destruct (Req_EM_T 0 0); destruct (Req_EM_T 1 0); try lra; field.
    + replace (snd (derivs (1 / 2) (1 / 2) ex_par (ex_Y t)) i) with 0.
      { apply (is_derive_ext (fun _ => ex_Y 0 i)). { intros u. do 12 (destruct i as [|i]; [reflexivity || lia|]). reflexivity. } apply (is_derive_const (ex_Y 0 i)). }
      destruct (Nat.eq_dec i 1) as [->|N1].
      { symmetry. apply (proj1 (C127_cut (1 / 2) (1 / 2) ex_par (ex_Y t) ltac:(cbn [ex_Y]; lra))); [reflexivity|reflexivity|now left]. }
      unfold derivs, snd. rewrite ren_ex by reflexivity. assert (CS : i = 2%nat \/ i = 3%nat \/ i = 4%nat \/ i = 5%nat \/ i = 6%nat \/ i = 7%nat \/ i = 8%nat \/ i = 9%nat \/ i = 10%nat) by lia.
      repeat (destruct CS as [-> | CS]); [..|subst i]; cbn [rates rate]; unfold LNS1, LNS2, LNS; cbn [Nat.add ex_Y]; ring.
  - unfold derivs, snd. rewrite ren_ex by reflexivity. cbn [rates rate]. unfold LNS1, LS2, dot, c15, c16, c17, pnu, pm, v6, v3, om, pm. cbn [Nat.add ex_y]. pose proof (Rinv_0_lt_compat _ (vP (1 / 2) (1 / 2) ex_y)) as V. replace 0.5 with (/ 2) by lra. unfold Rdiv. nra.
Qed.
