(** * Elastic propagator: the compiled kernels and their drivers.

    Instance of [Stag.v] (wavefields) and [StagKernel.v] (kernels) given by elastic.c and elastic.py; any
    number [nd] of dimensions, dimension 0 is the slowest (z in 3-D, y in 2-D).

    Simplification beside those of [StagKernel.v]: sums of terms written out in the code for every
    dimension are folds over the dimensions (the order of additions is immaterial in exact arithmetic). *)
From Coq Require Import List ZArith QArith Lia Bool.
From Verif Require Import Ops Sums Grid Stencil ScalarModel Stag StagKernel.
Import ListNotations.
Local Open Scope K_scope.

(** Wavefields: velocities [v?], normal stresses [Sg i i], shear stresses [Sg i j], [i < j]
    (elastic.c:84-105). *)
Inductive eX := VL (d : nat) | Sg (i j : nat).
(** Derivative terms and their memory variables: [DS d j]: derivative in dimension [j] of the stress of
    dimensions [d], [j], used by velocity [d], with [m_sigma..]; [DV i j]: derivative in dimension [j] of
    velocity [i] with [m_v..] (elastic.c:125-160). *)
Inductive eE := DS (d j : nat) | DV (i j : nat).
(** Kinds of sources and receivers: body force or velocity of dimension [d], pressure
    (elastic.c:321-367, elastic.py:1230-1260). *)
Inductive eC := CV (d : nat) | CP.
(** Snapshots: [dv?dbuoyancy_store], [dv?d?_store], [dvydx_plus_dvxdy_store], ... (elastic.c:719-730). *)
Inductive eQ := QB (d : nat) | QD (k : nat) | QS (i j : nat).
(** Models: [lamb], [mu], [mu_ij] at the positions of the shear stresses, [buoyancy_d] at those of the
    velocities (elastic.py:23-123). *)
Inductive eM := ML | MMU | MS (i j : nat) | EB (d : nat).

Definition eX_dec (a b : eX) : {a = b} + {a <> b}. Proof. decide equality; apply Nat.eq_dec. Defined.
Definition eE_dec (a b : eE) : {a = b} + {a <> b}. Proof. decide equality; apply Nat.eq_dec. Defined.
Definition eQ_dec (a b : eQ) : {a = b} + {a <> b}. Proof. decide equality; apply Nat.eq_dec. Defined.
Definition eM_dec (a b : eM) : {a = b} + {a <> b}. Proof. decide equality; apply Nat.eq_dec. Defined.

(** Stress of two dimensions, in any order. *)
Definition sg (i j : nat) : eX := Sg (Nat.min i j) (Nat.max i j).
Definition ms (i j : nat) : eM := MS (Nat.min i j) (Nat.max i j).

(** Staggering: [v_d] at half positions in [d]; normal stresses at integer positions; shear stress [i], [j] at half
    positions in [i] and [j] (elastic.py:1095-1168; loop bounds elastic.c:840-1220). *)
Definition el_xh (x : eX) (d : nat) : bool :=
  match x with VL e => Nat.eqb d e | Sg i j => negb (Nat.eqb i j) && (Nat.eqb d i || Nat.eqb d j) end.
Definition el_eh (e : eE) (d : nat) : bool :=
  match e with DS k _ => Nat.eqb d k | DV i j => negb (Nat.eqb i j) && (Nat.eqb d i || Nat.eqb d j) end.
Definition el_esrc (e : eE) : eX := match e with DS d j => sg d j | DV i _ => VL i end.
Definition el_edim (e : eE) : nat := match e with DS _ j => j | DV _ j => j end.
(** Which terms a wavefield is updated with (elastic.py:1952-2139, elastic.c:888-1215). *)
Definition el_inc (x : eX) (e : eE) : bool :=
  match x, e with
  | VL d, DS d' _ => Nat.eqb d d'
  | Sg i j, DV k l => if Nat.eqb i j then Nat.eqb k l
                      else (Nat.eqb k i && Nat.eqb l j) || (Nat.eqb k j && Nat.eqb l i)
  | _, _ => false
  end.
Definition el_xA (x : eX) : bool := match x with VL _ => true | Sg _ _ => false end.
Definition el_eA (e : eE) : bool := match e with DS _ _ => true | DV _ _ => false end.
(** [add_pressure] adds to, [record_pressure] sums, all normal stresses (elastic.c:321-367). *)
Definition el_cin (c : eC) (x : eX) : bool :=
  match c, x with
  | CV d, VL e => Nat.eqb d e
  | CP, Sg i j => Nat.eqb i j
  | _, _ => false
  end.
Definition el_cA (c : eC) : bool := match c with CV _ => true | CP => false end.

(** Pairs of dimensions, [i < j]. *)
Definition above (nd i : nat) : list nat := seq (Datatypes.S i) (nd - Datatypes.S i).
Definition pairs (nd : nat) : list (nat * nat) := flat_map (fun i => map (pair i) (above nd i)) (seq 0 nd).
(** All pairs of dimensions: equal, then [(j, i)], [(i, j)] for [i < j]. *)
Definition el_allX (nd : nat) : list eX :=
  map VL (seq 0 nd) ++ map (fun k => Sg k k) (seq 0 nd) ++ map (fun q => Sg (fst q) (snd q)) (pairs nd).
Definition el_allE (nd : nat) : list eE :=
  flat_map (fun d => map (DS d) (seq 0 nd)) (seq 0 nd)
  ++ map (fun k => DV k k) (seq 0 nd)
  ++ flat_map (fun q => [DV (snd q) (fst q); DV (fst q) (snd q)]) (pairs nd).
Definition el_allC (nd : nat) : list eC := map CV (seq 0 nd) ++ [CP].

Definition el_sys (nd : nat) : sys := mksys eX eE eC (el_allX nd) (el_allE nd) (el_allC nd)
  (fun e x => if eX_dec (el_esrc e) x then true else false) el_esrc el_edim el_xh el_eh el_inc el_xA el_eA el_cin el_cA.

(** Loop nests: one per velocity (elastic.c:829-997, 1770-1905); normal stresses (elastic.c:1028-1105,
    1950-2040), one per shear stress (elastic.c:1107-1220, 2045-2150).  The backward kernel updates memory variables
    only outside region 1. *)
Definition el_gV (nd d : nat) : grp (el_sys nd) eQ eM :=
  @mkgrp (el_sys nd) eQ eM (fun e => Nat.eqb e d) (map (DS d) (seq 0 nd)) [VL d] [QB d] [EB d].
Definition el_gN (nd : nat) : grp (el_sys nd) eQ eM :=
  @mkgrp (el_sys nd) eQ eM (fun _ => false) (map (fun k => DV k k) (seq 0 nd)) (map (fun k => Sg k k) (seq 0 nd))
    (map QD (seq 0 nd)) [ML; MMU].
Definition el_gS (nd : nat) (q : nat * nat) : grp (el_sys nd) eQ eM :=
  @mkgrp (el_sys nd) eQ eM (fun e => Nat.eqb e (fst q) || Nat.eqb e (snd q)) [DV (snd q) (fst q); DV (fst q) (snd q)]
    [Sg (fst q) (snd q)] [QS (fst q) (snd q)] [MS (fst q) (snd q)].
Definition el_kern (nd : nat) : kern (el_sys nd) :=
  @mkkern (el_sys nd) eQ eM eX_dec eE_dec eQ_dec eM_dec
    (fun A => if A then map (el_gV nd) (seq 0 nd) else el_gN nd :: map (el_gS nd) (pairs nd))
    (fun _ => true).

Section Num.
Variable nd : nat.
Variable K : ops.
Variable dt : K.
Variable md : eM -> arr K.     (* [lamb_shot], [mu_shot], [mu_yx_shot], ..., [buoyancy_?_shot] *)

(** [w_sum] of a velocity (elastic.c:850-886). *)
Definition el_wsum (d : nat) (T : eE -> K) : K := fold_left (fun s j => s + T (DS d j)) (seq 0 nd) 0.
(** [v[i] += buoyancy[i] * dt * w_sum] (elastic.c:891, 942, 995);
    [sigmaxx[i] += dt * (w_sum + 2 * mu[i] * dvxdx)] with [w_sum] the sum of [lamb[i] * dv?d?] (elastic.c:1048-1102);
    [sigmaxy[i] += dt * mu_yx[i] * w_sum] (elastic.c:1141, 1180, 1218). *)
Definition el_ninc (x : eX) (T : eE -> K) (i : Z) : K :=
  match x with
  | VL d => md (EB d) i * dt * el_wsum d T
  | Sg k j =>
    if Nat.eqb k j
    then dt * (fold_left (fun s l => s + md ML i * T (DV l l)) (seq 0 nd) 0 + two * md MMU i * T (DV k k))
    else dt * md (MS k j) i * (T (DV j k) + T (DV k j))
  end.
(** [dvzdbuoyancy_store_1_t[i] = dt * w_sum] (elastic.c:888-890), [dvzdz_store_1_t[i] = dt * dvzdz] (elastic.c:1062-1064),
    [dvydx_plus_dvxdy_store_1_t[i] = dt * w_sum] (elastic.c:1138-1140). *)
Definition el_nsto (q : eQ) (T : eE -> K) : K :=
  match q with
  | QB d => dt * el_wsum d T
  | QD k => dt * T (DV k k)
  | QS k j => dt * (T (DV j k) + T (DV k j))
  end.
(** [VX_X], [VX_Y], [SIGMAXX_X], [SIGMAXY_X], ... (elastic.c:163-293). *)
Definition el_lsum (k : nat) (Y : eX -> K) (i : Z) (c : K) : K :=
  fold_left (fun s l => s + (if Nat.eqb l k then (md ML i + two * md MMU i) * c * Y (Sg k k) else md ML i * c * Y (Sg l l))) (seq 0 nd) 0.
Definition el_ntb (e : eE) (Y : eX -> K) (i : Z) : K :=
  match e with
  | DS d j => dt * md (EB d) i * Y (VL d)
  | DV k j => if Nat.eqb k j then dt * el_lsum k Y i 1 else dt * md (ms k j) i * Y (sg k j)
  end.
(** [VX_X_PML], ... (elastic.c:163-305). *)
Definition el_ntbp (e : eE) (b m : K) (Y : eX -> K) (i : Z) : K :=
  match e with
  | DS d j => dt * (1 + b) * md (EB d) i * Y (VL d) + b * m
  | DV k j => if Nat.eqb k j then dt * (1 + b) * el_lsum k Y i 1 + b * m
              else dt * (1 + b) * md (ms k j) i * Y (sg k j) + b * m
  end.
(** [m_sigmazzzn[i] = buoyancy_z[i] * dt * azh * vz[i] + azh * m_sigmazzz[i]] (elastic.c:1782-1796),
    [m_vxx[i] = (lamb + 2 mu) * dt * a * sigmaxx[i] + lamb * dt * a * sigmayy[i] + a * m_vxx[i]]
    (elastic.c:1996-2027), [m_vxy[i] = mu_yx[i] * dt * a * sigmaxy[i] + a * m_vxy[i]] (elastic.c:2068-2080). *)
Definition el_nmem (e : eE) (a m : K) (Y : eX -> K) (i : Z) : K :=
  match e with
  | DS d j => md (EB d) i * dt * a * Y (VL d) + a * m
  | DV k j => if Nat.eqb k j then el_lsum k Y i (dt * a) + a * m
              else md (ms k j) i * dt * a * Y (sg k j) + a * m
  end.
(** [grad_buoyancy[i] += v[i] * dvdbuoyancy[i] * step_ratio] (elastic.c:1798-1802);
    [grad_lamb[i] += (sigmazz + sigmayy + sigmaxx) * (dvzdz_store + dvydy_store + dvxdx_store) * step_ratio],
    [grad_mu[i] += 2 * (sigmazz * dvzdz_store + ...) * step_ratio] (elastic.c:1960-1994);
    [grad_mu_yx[i] += sigmaxy[i] * dvxdy_dvydx_store[i] * step_ratio] (elastic.c:2060-2066). *)
Definition el_ngm (k : eM) (Y : eX -> K) (Q : eQ -> K) (r : K) : K :=
  match k with
  | ML => fold_left (fun s l => s + Y (Sg l l)) (seq 0 nd) 0 * fold_left (fun s l => s + Q (QD l)) (seq 0 nd) 0 * r
  | MMU => two * fold_left (fun s l => s + Y (Sg l l) * Q (QD l)) (seq 0 nd) 0 * r
  | MS i j => Y (Sg i j) * Q (QS i j) * r
  | EB d => Y (VL d) * Q (QB d) * r
  end.
Definition el_num : knum (el_sys nd) (el_kern nd) K :=
  @mkknum (el_sys nd) (el_kern nd) K el_ninc el_nsto el_ntb el_ntbp el_nmem el_ngm.
End Num.

(** [lamb_requires_grad], [mu_requires_grad], [buoyancy_requires_grad] (elastic.py:1530-1545): normal terms are saved
    if one of the first two is requested (elastic.c:1068). *)
Definition el_fq (lg mg bg : bool) (q : eQ) : bool := match q with QD _ => lg || mg | QS _ _ => mg | QB _ => bg end.
Definition el_fm (lg mg bg : bool) (k : eM) : bool := match k with ML => lg | MMU => mg | MS _ _ => mg | EB _ => bg end.

(** [ElasticForwardFunc.forward] and [.backward] for one shot (elastic.py:1181-1949); [pw]: PML widths. *)
Definition elastic_forward (nd : nat) (K : ops) (P : spar (el_sys nd) K) (pw : nat -> Z * Z) (dt : K) (md : eM -> arr K)
    visA visB (lg mg bg : bool) (sr : Z) (f : krec (el_sys nd) K) (nt : Z) (callback : option Z)
    (store : eQ -> Z -> arr K) (u : sst (el_sys nd) K) :=
  k_fwd (el_sys nd) (el_kern nd) K P (el_num nd K dt md) pw visA visB (el_fq lg mg bg) sr f nt callback store u.
Definition elastic_backward (nd : nat) (K : ops) (P : spar (el_sys nd) K) (pw : nat -> Z * Z) (dt : K) (md : eM -> arr K)
    visA visB (lg mg bg : bool) (sr : Z) (gr : krec (el_sys nd) K) (nt : Z) (callback : option Z)
    (store : eQ -> Z -> arr K) (g : sst (el_sys nd) K) :=
  k_bwd (el_sys nd) (el_kern nd) K P (el_num nd K dt md) pw visA visB (el_fm lg mg bg) sr gr nt callback store g.
