(** * Variable-density acoustic propagator: the compiled kernels and their drivers.

    Instance of [Stag.v] (wavefields) and [StagKernel.v] (kernels) given by acoustic.c and
    acoustic.py; any number [nd] of dimensions, dimension 0 is the slowest (z in 3-D). *)
From Coq Require Import List ZArith QArith Lia Bool.
From Verif Require Import Ops Sums Grid Stencil ScalarModel Stag StagKernel.
Import ListNotations.
Local Open Scope K_scope.

(** Wavefields: pressure [p] and velocities [vz], [vy], [vx] (acoustic.c:45-53). *)
Inductive aX := XP | XV (d : nat).
(** Derivative terms and their memory variables: [EV d]: derivative of [p] with [psi]; [EP d]: derivative of
    the velocity of dimension [d] with [phi] (acoustic.c:55-72). *)
Inductive aE := EV (d : nat) | EP (d : nat).
(** Models (and snapshots saved for their gradients): [k], [buoyancy] (acoustic.c:36-43, 118-125). *)
Inductive aM := MK | MB (d : nat).

Definition aX_dec (a b : aX) : {a = b} + {a <> b}. Proof. decide equality; apply Nat.eq_dec. Defined.
Definition aE_dec (a b : aE) : {a = b} + {a <> b}. Proof. decide equality; apply Nat.eq_dec. Defined.
Definition aM_dec (a b : aM) : {a = b} + {a <> b}. Proof. decide equality; apply Nat.eq_dec. Defined.

(** Wavefields and staggering: [p], [phi] at integer positions, [v], [psi] of dimension [d] at half positions
    in dimension [d] (acoustic.py:653-702; loop bounds acoustic.c:455-570). *)
Definition ac_xh (x : aX) (d : nat) : bool := match x with XP => false | XV e => Nat.eqb d e end.
Definition ac_eh (e : aE) (d : nat) : bool := match e with EP _ => false | EV e => Nat.eqb d e end.
Definition ac_esrc (e : aE) : aX := match e with EV _ => XP | EP d => XV d end.
Definition ac_edim (e : aE) : nat := match e with EV d => d | EP d => d end.
Definition ac_inc (x : aX) (e : aE) : bool :=
  match x, e with
  | XP, EP _ => true
  | XV d, EV d' => Nat.eqb d d'
  | _, _ => false
  end.
Definition ac_xA (x : aX) : bool := match x with XP => false | XV _ => true end.
Definition ac_eA (e : aE) : bool := match e with EP _ => false | EV _ => true end.
(** Sources and receivers of kind [c] act on wavefield [c] (acoustic.c:402-430, 521-542, 605-610). *)
Definition ac_allX (nd : nat) : list aX := XP :: map XV (seq 0 nd).

Definition ac_sys (nd : nat) : sys := mksys aX aE aX (ac_allX nd) (map EV (seq 0 nd) ++ map EP (seq 0 nd)) (ac_allX nd)
  (fun e x => if aX_dec (ac_esrc e) x then true else false) ac_esrc ac_edim ac_xh ac_eh ac_inc ac_xA ac_eA
  (fun c x => if aX_dec c x then true else false) ac_xA.

(** Loop nests: one per velocity (acoustic.c:453-519, 1024-1087), then pressure (acoustic.c:562-601, 1134-1179).
    The backward kernel updates [psi] in every region, [phi] outside region 1 only
    (acoustic.c:1034-1035, 1146-1158). *)
Definition ac_kern (nd : nat) : kern (ac_sys nd) :=
  @mkkern (ac_sys nd) aM aM aX_dec aE_dec aM_dec aM_dec
    (fun A => if A then map (fun d => @mkgrp (ac_sys nd) aM aM (fun e => Nat.eqb e d) [EV d] [XV d] [MB d] [MB d]) (seq 0 nd)
              else [@mkgrp (ac_sys nd) aM aM (fun _ => false) (map EP (seq 0 nd)) [XP] [MK] [MK]])
    (fun e => match e with EP _ => true | EV _ => false end).

Section Num.
Variable nd : nat.
Variable K : ops.
Variable dt : K.
Variable kb : aM -> arr K.     (* [k_shot], [buoyancy_?_shot] *)

(** [div_v] (acoustic.c:573-596). *)
Definition ac_div (T : aE -> K) : K := fold_left (fun s d => s + T (EP d)) (seq 0 nd) 0.

(** [vz_shot[i] -= dt * buoyancy_z_shot[i] * term_z] (acoustic.c:470, 493, 517),
    [p_shot[i] -= dt * k_shot[i] * div_v] (acoustic.c:600). *)
Definition ac_ninc (x : aX) (T : aE -> K) (i : Z) : K :=
  match x with
  | XP => - (dt * kb MK i * ac_div T)
  | XV d => - (dt * kb (MB d) i * T (EV d))
  end.
(** [bz_grad_store_1_t[i] = term_z] (acoustic.c:467-469), [k_grad_store_1_t[i] = div_v] (acoustic.c:597-599). *)
Definition ac_nsto (q : aM) (T : aE -> K) : K :=
  match q with MK => ac_div T | MB d => T (EV d) end.
(** [VZ_ADJOINT], [P_ADJOINT_Z] (acoustic.c:73-103). *)
Definition ac_ntb (e : aE) (Y : aX -> K) (i : Z) : K :=
  match e with
  | EP d => - dt * kb MK i * Y XP
  | EV d => - dt * kb (MB d) i * Y (XV d)
  end.
(** [VZ_ADJOINT_PML], [P_ADJOINT_Z_PML] (acoustic.c:74-104). *)
Definition ac_ntbp (e : aE) (b m : K) (Y : aX -> K) (i : Z) : K :=
  match e with
  | EP d => b * m - dt * (1 + b) * kb MK i * Y XP
  | EV d => b * m - dt * (1 + b) * kb (MB d) i * Y (XV d)
  end.
(** [psi_zn_t[i] = azh[z] * psi_z_t[i] - dt * buoyancy_z_shot[i] * azh[z] * vz_shot[i]] (acoustic.c:1034-1035),
    [phi_z_shot[i] = az[z] * phi_z_shot[i] - dt * k_shot[i] * az[z] * p_shot[i]] (acoustic.c:1146-1158). *)
Definition ac_nmem (e : aE) (a m : K) (Y : aX -> K) (i : Z) : K :=
  match e with
  | EP d => a * m - dt * kb MK i * a * Y XP
  | EV d => a * m - dt * kb (MB d) i * a * Y (XV d)
  end.
(** [grad_bz_shot[i] -= dt * vz_shot[i] * bz_grad_store_1_t[i] * step_ratio] (acoustic.c:1037-1040),
    [grad_k_shot[i] -= dt * p_shot[i] * k_grad_store_1_t[i] * step_ratio] (acoustic.c:1160-1163). *)
Definition ac_ngm (k : aM) (Y : aX -> K) (Q : aM -> K) (r : K) : K :=
  match k with
  | MK => - (dt * Y XP * Q MK * r)
  | MB d => - (dt * Y (XV d) * Q (MB d) * r)
  end.
Definition ac_num : knum (ac_sys nd) (ac_kern nd) K :=
  @mkknum (ac_sys nd) (ac_kern nd) K ac_ninc ac_nsto ac_ntb ac_ntbp ac_nmem ac_ngm.
End Num.

(** [k_requires_grad], [b_requires_grad] (acoustic.py:986-990: flags of the first two models). *)
Definition ac_flag (kg bg : bool) (k : aM) : bool := match k with MK => kg | MB _ => bg end.

(** [AcousticForwardFunc.forward] and [.backward] for one shot; [pw]: PML widths. *)
Definition acoustic_forward (nd : nat) (K : ops) (P : spar (ac_sys nd) K) (pw : nat -> Z * Z) (dt : K) (kb : aM -> arr K)
    visA visB (kg bg : bool) (sr : Z) (f : krec (ac_sys nd) K) (nt : Z) (callback : option Z)
    (store : aM -> Z -> arr K) (u : sst (ac_sys nd) K) :=
  k_fwd (ac_sys nd) (ac_kern nd) K P (ac_num nd K dt kb) pw visA visB (ac_flag kg bg) sr f nt callback store u.
Definition acoustic_backward (nd : nat) (K : ops) (P : spar (ac_sys nd) K) (pw : nat -> Z * Z) (dt : K) (kb : aM -> arr K)
    visA visB (kg bg : bool) (sr : Z) (gr : krec (ac_sys nd) K) (nt : Z) (callback : option Z)
    (store : aM -> Z -> arr K) (g : sst (ac_sys nd) K) :=
  k_bwd (ac_sys nd) (ac_kern nd) K P (ac_num nd K dt kb) pw visA visB (ac_flag kg bg) sr gr nt callback store g.
