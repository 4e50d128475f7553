(** * Model of a batch of shots run by several threads.

    The compiled kernels loop over shots with [#pragma omp parallel for] (scalar.c:234-236,
    519-521).  All shots use the same arrays, each at its own pointer offset.  Here the
    arrays are global, a shot's kernel sees them shifted by its offset, and the threads'
    work is interleaved arbitrarily.

    Simplifications: the unit of interleaving is one cell update or one end-of-step source
    injection and receiver recording; the snapshot buffer is a family of arrays indexed by
    snapshot number (layout: see [Storage.v]); amplitudes are a family of rows indexed by
    time step. *)
From Coq Require Import List ZArith QArith Lia Bool.
From Verif Require Import Ops Sums Grid Stencil ScalarModel ScalarFunc.
Import ListNotations.
Local Open Scope K_scope.

(** What a thread does to the memory of a shot between two scheduling points. *)
Inductive action :=
| Cell (t : Z) (rp : list Z * pt)  (* update one cell at time step t *)
| Fin (t : Z).                      (* add sources and record receivers at time step t *)

(** [l] interleaves the programs [prog k] of the shots [0 <= k < ns]. *)
Definition interleaves {A} (ns : Z) (prog : Z -> list A) (l : list (Z * A)) : Prop :=
  Forall (fun x => 0 <= fst x < ns)%Z l /\
  forall k, (0 <= k < ns)%Z -> map snd (filter (fun x => fst x =? k)%Z l) = prog k.

Section Shots.
Variable K : ops.
Variable P0 : par K.          (* everything but the locations *)
Variable NS : Z.              (* n_shots *)
Variables nsrc nrec : Z.      (* n_sources_per_shot, n_receivers_per_shot *)
Variables srcs recs : Z -> Z. (* sources_i [n_shots, n_sources_per_shot], receivers_i, flat *)
Variable batched : bool.      (* v_batched *)

Notation shape := (p_shape P0).
Notation n := (prodZ shape).

(** [c] consecutive entries from the pointer [a + k * c] (si, ri, scalar.c:246-247). *)
Definition row {A} (a : Z -> A) (c k : Z) : list A := map (fun j => a (k * c + j)%Z) (zrange 0 c).
Definition put_row (l : list K) (c k : Z) (a : arr K) : arr K :=
  fun j => if (k * c <=? j)%Z && (j <? k * c + c)%Z then nth (Z.to_nat (j - k * c)) l 0 else a j.

(** Pointer [a + k * n] (shot_i, scalar.c:245) and back. *)
Definition sh (k : Z) (a : arr K) : arr K := fun i => a (k * n + i)%Z.
Definition unsh (k : Z) (a : arr K) : arr K := fun j => a (j - k * n)%Z.

(** Parameters seen by shot [k]. *)
Definition shot_par (k : Z) : par K :=
  mkpar (p_acc P0) (p_shape P0) (p_rd P0) (p_rd2 P0) (p_a P0) (p_b P0) (p_db P0) (p_dt2 P0)
        (row srcs nsrc k) (row recs nrec k).

(** [v_shot] (scalar.c:248), [v2dt2_shot] (scalar.c:533-534). *)
Definition shot_v (v : arr K) (k : Z) : arr K := if batched then sh k v else v.

(** ** Forward *)

Record fglob := mkfglob {
  F_wfc : arr K;
  F_wfp : arr K;
  F_psi : nat -> arr K;
  F_psin : nat -> arr K;
  F_zeta : nat -> arr K;
  F_store : Z -> arr K;
  F_r : Z -> arr K
}.

(** scalar.c:245-292: the arrays as seen through the pointers of shot [k]. *)
Definition fview (k : Z) (M : fglob) : cmem K :=
  mkcmem K (sh k (F_wfc M)) (sh k (F_wfp M)) (fun d => sh k (F_psi M d))
    (fun d => sh k (F_psin M d)) (fun d => sh k (F_zeta M d)) (fun s => sh k (F_store M s))
    (fun t => row (F_r M t) nrec k).
Definition fput (k : Z) (m : cmem K) (M : fglob) : fglob :=
  mkfglob (unsh k (m_wfc K m)) (unsh k (m_wfp K m)) (fun d => unsh k (m_psi K m d))
    (fun d => unsh k (m_psin K m d)) (fun d => unsh k (m_zeta K m d)) (fun s => unsh k (m_store K m s))
    (fun t => put_row (m_r K m t) nrec k (F_r M t)).

(** One action on the memory of one shot; the parity of the step selects the buffers
    (scalar.c:264-283). *)
Definition fact (P : par K) (v : arr K) (vrg : bool) (sr : Z) (f : Z -> list K) (s0 : Z)
    (m : cmem K) (a : action) : cmem K :=
  let t := match a with Cell t _ => t | Fin t => t end in
  let body m := match a with
    | Cell t rp => c_fwd_cell K P v (vrg && (t mod sr =? 0)%Z) (t / sr)%Z m rp
    | Fin t => c_fwd_body K P v [] vrg sr f t m
    end in
  if Z.odd (t - s0) then c_swap K (body (c_swap K m)) else body m.

(** The actions of one shot in one call, in program order (scalar.c:263-411). *)
Definition fprog (vis : list (list Z * pt)) (nt s0 : Z) : list action :=
  flat_map (fun t => map (Cell t) vis ++ [Fin t]) (zrange s0 (s0 + nt)).

Definition fexec (v : arr K) (vrg : bool) (sr : Z) (f : Z -> arr K) (s0 : Z) (M : fglob)
    (x : Z * action) : fglob :=
  let k := fst x in
  fput k (fact (shot_par k) (shot_v v k) vrg sr (fun t => row (f t) nsrc k) s0 (fview k M) (snd x)) M.

Definition fswap (M : fglob) : fglob :=
  mkfglob (F_wfp M) (F_wfc M) (F_psin M) (F_psi M) (F_zeta M) (F_store M) (F_r M).

(** One call of the compiled function on the whole batch and the swap of the Python
    references (scalar.py:873-921); [sched s]: the interleaving of the call at step [s]. *)
Definition batch_chunk (v : arr K) (vrg : bool) (sr : Z) (f : Z -> arr K)
    (sched : Z -> list (Z * action)) (N cf : Z) (M : fglob) (s : Z) : fglob :=
  let step_nt := Z.min (N - s) cf in
  let M' := fold_left (fexec v vrg sr f (s * sr)) (sched s) M in
  if ((step_nt * sr) mod 2 =? 0)%Z then M' else fswap M'.

(** The schedule is an interleaving of the shots' programs in every call. *)
Definition fsched_ok (vis : list (list Z * pt)) (sr nt : Z) (cb : option Z)
    (sched : Z -> list (Z * action)) : Prop :=
  let N := (nt / sr)%Z in
  let cf := match cb with Some c => c | None => N end in
  forall s, interleaves NS (fun _ => fprog vis (Z.min (N - s) cf * sr) (s * sr)) (sched s).

(** scalar.py:755-783: padding of a batched initial wavefield treats shots separately. *)
Definition stack (a : Z -> arr K) : arr K := fun j => a (j / n)%Z (j mod n)%Z.

Definition batch_init (pw : nat -> Z * Z) (store0 : Z -> arr K) (u : Z -> st K) : fglob :=
  let m k := fwd_init K (shot_par k) pw (fun s => sh k (store0 s)) (u k) in
  mkfglob (stack (fun k => m_wfc K (m k))) (stack (fun k => m_wfp K (m k)))
    (fun d => stack (fun k => m_psi K (m k) d)) (fun d => stack (fun k => m_psin K (m k) d))
    (fun d => stack (fun k => m_zeta K (m k) d)) store0 (fun _ _ => 0).

(** scalar.py:737-934 on a batch: wavefields of every shot, receiver amplitudes
    [nt, n_shots, n_receivers_per_shot] (flat rows), snapshots. *)
Definition batch_forward (pw : nat -> Z * Z) (v : arr K) (vrg : bool) (sr : Z) (f : Z -> arr K)
    (nt : Z) (cb : option Z) (sched : Z -> list (Z * action)) (store0 : Z -> arr K) (u : Z -> st K)
    : option ((Z -> st K) * (Z -> arr K) * (Z -> arr K)) :=
  let N := (nt / sr)%Z in
  let cf := match cb with Some c => c | None => N end in
  let out M := ((fun k => mkst K (crop K P0 (sh k (F_wfc M))) (crop K P0 (sh k (F_wfp M)))
                           (fun d => crop K P0 (sh k (F_psi M d))) (fun d => crop K P0 (sh k (F_zeta M d)))),
                F_r M, F_store M) in
  let M0 := batch_init pw store0 u in
  if (nt <=? 0)%Z then Some (out M0)
  else if (cf =? 0)%Z then None
  else Some (out (fold_left (batch_chunk v vrg sr f sched N cf) (range_up N cf) M0)).

(** ** Backward *)

Record bglob := mkbglob {
  B_wfc : arr K;
  B_wfp : arr K;
  B_psi : nat -> arr K;
  B_psin : nat -> arr K;
  B_zeta : nat -> arr K;
  B_zetan : nat -> arr K;
  B_f : Z -> arr K;
  B_buf : arr K;   (* the memory grad_v_thread points at *)
  B_gv : arr K     (* grad_v; only used when grad_v_thread is a separate buffer *)
}.

(** Block of [grad_v_thread] that shot [k] accumulates in (scalar.c:531-532);
    [th k] = omp_get_thread_num() while shot [k] is processed. *)
Definition gblock (th : Z -> Z) (k : Z) : Z := if batched then k else th k.

Definition bview (th : Z -> Z) (k : Z) (M : bglob) : bmem K :=
  mkbmem K (sh k (B_wfc M)) (sh k (B_wfp M)) (fun d => sh k (B_psi M d))
    (fun d => sh k (B_psin M d)) (fun d => sh k (B_zeta M d)) (fun d => sh k (B_zetan M d))
    (fun t => row (B_f M t) nsrc k) (sh (gblock th k) (B_buf M)).
Definition bput (th : Z -> Z) (k : Z) (m : bmem K) (M : bglob) : bglob :=
  mkbglob (unsh k (g_wfc K m)) (unsh k (g_wfp K m)) (fun d => unsh k (g_psi K m d))
    (fun d => unsh k (g_psin K m d)) (fun d => unsh k (g_zeta K m d)) (fun d => unsh k (g_zetan K m d))
    (fun t => put_row (g_f K m t) nsrc k (B_f M t)) (unsh (gblock th k) (g_v K m)) (B_gv M).

Definition bact (P : par K) (v2dt2 : arr K) (store : Z -> arr K) (vrg : bool) (sr : Z)
    (gr : Z -> list K) (s0 : Z) (m : bmem K) (a : action) : bmem K :=
  let t := match a with Cell t _ => t | Fin t => t end in
  let body m := match a with
    | Cell t rp => c_bwd_cell K P v2dt2 store (vrg && (t mod sr =? 0)%Z) sr (t / sr)%Z m rp
    | Fin t => c_bwd_body K P v2dt2 [] store vrg sr gr t m
    end in
  if Z.odd (s0 - 1 - t) then b_swap K (body (b_swap K m)) else body m.

(** scalar.c:543-703 *)
Definition bprog (vis : list (list Z * pt)) (nt s0 : Z) : list action :=
  flat_map (fun t => map (Cell t) vis ++ [Fin t]) (rev (zrange (s0 - nt) s0)).

Definition bexec (th : Z -> Z) (v2dt2 : arr K) (store : Z -> arr K) (vrg : bool) (sr : Z)
    (gr : Z -> arr K) (s0 : Z) (M : bglob) (x : Z * action) : bglob :=
  let k := fst x in
  bput th k (bact (shot_par k) (shot_v v2dt2 k) (fun s => sh k (store s)) vrg sr
               (fun t => row (gr t) nrec k) s0 (bview th k M) (snd x)) M.

(** common_cpu.h:28-45 *)
Definition combine_grad (nt : Z) (buf gv : arr K) : arr K :=
  fun i => if (0 <=? i)%Z && (i <? n)%Z
           then fold_left (fun x th => x + buf (th * n + i)%Z) (zrange 0 nt) (gv i)
           else gv i.

Definition bswap (M : bglob) : bglob :=
  mkbglob (B_wfp M) (B_wfc M) (B_psin M) (B_psi M) (B_zetan M) (B_zeta M) (B_f M) (B_buf M) (B_gv M).

(** A separate buffer is used for the threads (scalar.py:1209-1218, scalar.c:704-708);
    [nth] = [aux], the number of threads. *)
Definition separate (vrg : bool) (nth : Z) : bool := vrg && negb batched && (1 <? nth)%Z.

(** One call of the compiled backward function (scalar.c:511-710) and the swap of the Python
    references (scalar.py:1250-1297). *)
Definition batch_bchunk (nth : Z) (th : Z -> Z -> Z) (v2dt2 : arr K) (store : Z -> arr K) (vrg : bool)
    (sr : Z) (gr : Z -> arr K) (sched : Z -> list (Z * action)) (cf : Z) (M : bglob) (s : Z) : bglob :=
  let step_nt := Z.min s cf in
  let M1 := fold_left (bexec (th s) v2dt2 store vrg sr gr (s * sr)) (sched s) M in
  let M2 := if separate vrg nth
            then mkbglob (B_wfc M1) (B_wfp M1) (B_psi M1) (B_psin M1) (B_zeta M1) (B_zetan M1) (B_f M1)
                         (B_buf M1) (combine_grad nth (B_buf M1) (B_gv M1))
            else M1 in
  if ((step_nt * sr) mod 2 =? 0)%Z then M2 else bswap M2.

Definition bsched_ok (vis : list (list Z * pt)) (sr nt : Z) (cb : option Z)
    (sched : Z -> list (Z * action)) : Prop :=
  let N := (nt / sr)%Z in
  let cf := match cb with Some c => c | None => N end in
  forall s, interleaves NS (fun _ => bprog vis (Z.min s cf * sr) (s * sr)) (sched s).

Definition bneg (M : bglob) : bglob :=
  mkbglob (B_wfc M) (fun i => - B_wfp M i) (B_psi M) (B_psin M) (B_zeta M) (B_zetan M) (B_f M)
          (B_buf M) (B_gv M).

(** scalar.py:1117-1195: all gradient buffers start as zeros. *)
Definition batch_binit (pw : nat -> Z * Z) (g : Z -> st K) : bglob :=
  let m k := bwd_init K (shot_par k) pw (g k) in
  mkbglob (stack (fun k => g_wfc K (m k))) (stack (fun k => g_wfp K (m k)))
    (fun d => stack (fun k => g_psi K (m k) d)) (fun d => stack (fun k => g_psin K (m k) d))
    (fun d => stack (fun k => g_zeta K (m k) d)) (fun d => stack (fun k => g_zetan K (m k) d))
    (fun _ _ => 0) (fun _ => 0) (fun _ => 0).

(** scalar.py:1026-1342 on a batch: gradients of the wavefields of every shot, of the source
    amplitudes, of the wavespeed ([n_shots] blocks if batched, otherwise one). *)
Definition batch_backward (pw : nat -> Z * Z) (nth : Z) (th : Z -> Z -> Z) (v : arr K)
    (store : Z -> arr K) (vrg : bool) (sr : Z) (gr : Z -> arr K) (nt : Z) (cb : option Z)
    (sched : Z -> list (Z * action)) (g : Z -> st K)
    : option ((Z -> st K) * (Z -> arr K) * arr K) :=
  let N := (nt / sr)%Z in
  let cf := match cb with Some c => c | None => N end in
  let out M := ((fun k => mkst K (crop K P0 (sh k (B_wfc M))) (crop K P0 (sh k (B_wfp M)))
                           (fun d => crop K P0 (sh k (B_psi M d))) (fun d => crop K P0 (sh k (B_zeta M d)))),
                B_f M, if separate vrg nth then B_gv M else B_buf M) in
  let M0 := batch_binit pw g in
  let v2dt2 := fun i => v i * v i * p_dt2 P0 in
  if (nt <=? 0)%Z then Some (out (bneg (bneg M0)))
  else if (cf =? 0)%Z then None
  else Some (out (bneg (fold_left (batch_bchunk nth th v2dt2 store vrg sr gr sched cf)
                                  (range_down N cf) (bneg M0)))).

End Shots.
