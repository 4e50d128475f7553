(** * A concrete acoustic problem over the rationals, used by the examples.

    Two dimensions, accuracy 2, 4 x 5 cells including the padding, PML widths 1, 1 and 0, 1. *)
From Coq Require Import List ZArith QArith Qcanon Lia Bool Permutation.
From Verif Require Import Ops Sums Grid Stencil DualNum ScalarModel ScalarRefine ScalarAdjoint ScalarApi ScalarEx
  Stag StagAdj StagKernel StagCell StagRefine StagGrad StagPy AcousticModel AcousticThm.
Import ListNotations.

Definition aexpw (d : nat) : Z * Z := match d with O => (1, 1)%Z | _ => (0, 1)%Z end.
Definition aex_zone (n : nat -> Z) (fd : Z) (pw : nat -> Z * Z) (h : bool) (d : nat) (y : Z) : bool :=
  ((fd + fst (pw d) <=? y) && (y <? n d - snd (pw d) - fd + (if h then 0 else 1)))%Z.
Definition aex_prof (n : nat -> Z) (fd : Z) (pw : nat -> Z * Z) (q : Z -> Qc) (h : bool) (d : nat) (y : Z) : Qc :=
  if aex_zone n fd pw h d y then qz 0 else q (y + (if h then 1 else 2) + Z.of_nat d)%Z.
Definition aexP : spar (ac_sys 2) Qc_ops :=
  @mkspar (ac_sys 2) Qc_ops A2 [4%Z; 5%Z] (fun d => qq 1 (Pos.of_succ_nat d))
    (aex_prof (fun d => nth d [4%Z; 5%Z] 0%Z) 1 aexpw (fun y => qq y 3))
    (aex_prof (fun d => nth d [4%Z; 5%Z] 0%Z) 1 aexpw (fun y => qq (- y) 2))
    (fun c => match c with XP => [6%Z; IGNORE] | XV _ => [6%Z] end)
    (fun c => match c with XP => [11%Z] | XV O => [12%Z] | XV _ => [7%Z] end).

Definition aex_vis (b e : nat -> Z) (A : bool) := svisits (ac_sys 2) (ac_kern 2) Qc_ops aexP b e A.
Definition aexF A := aex_vis (fpml_b _ _ aexP aexpw) (fpml_e _ _ aexP aexpw) A.
Definition aexB A := aex_vis (bpml_b _ _ aexP aexpw) (bpml_e _ _ aexP aexpw) A.

Definition aex_dt : Qc := qq 1 2.
Definition aex_kb (k : aM) : arr (dual Qc_ops) := fun i =>
  match k with MK => (qz (1 + i mod 3), qz (i - 4)) | MB d => (qq (1 + i mod 2) 2, qz (2 - i + Z.of_nat d)) end.
Definition aex_f : krec (ac_sys 2) (dual Qc_ops) := fun t c =>
  match c with XP => [(qz (t + 1), qz 2); (qz 5, qz 7)] | XV d => [(qz (2 - t), qz (t + Z.of_nat d))] end.
Definition aex_u : sst (ac_sys 2) (dual Qc_ops) :=
  @mksst (ac_sys 2) (dual Qc_ops)
    (fun x q => match x with XP => (qz (coord 0 q + 1), qz (coord 1 q)) | XV d => (qz (2 - coord 1 q), qz (coord 0 q + Z.of_nat d)) end)
    (fun e q => match e with EP d => (qz (coord 1 q), qz (1 - coord 0 q)) | EV d => (qz (3 - coord 1 q), qz 1) end).
Definition aex_g : sst (ac_sys 2) Qc_ops :=
  @mksst (ac_sys 2) Qc_ops (fun x q => match x with XP => qz (coord 0 q - 2) | XV d => qz (coord 1 q + 1) end)
    (fun e q => match e with EP d => qz (coord 0 q) | EV d => qz (2 - coord 1 q) end).
Definition aex_gr : krec (ac_sys 2) Qc_ops := fun t c => [qz (t + 1)].

Local Opaque IGNORE.
Lemma aex_geom : sgeom (ac_sys 2) Qc_ops aexP aexpw.
Proof.
  split.
  - intros [|[|d]] Hd; cbn in Hd |- *; lia.
  - intros h d y Hd Hy. assert (H : aex_zone (fun d => nth d [4%Z; 5%Z] 0%Z) 1 aexpw h d y = true).
    { unfold aex_zone. apply andb_true_iff. rewrite Z.leb_le, Z.ltb_lt. exact Hy. }
    cbn [sp_a sp_b aexP]. unfold aex_prof. rewrite H. split; reflexivity.
Qed.
Lemma aex_room : sroom (ac_sys 2) Qc_ops aexP aexpw.
Proof. intros [|[|d]] Hd; cbn in Hd |- *; lia. Qed.

Lemma aex_loc c l y x : l = (y * 5 + x)%Z -> (forall z, cin (ac_sys 2) c z = true -> dom (ac_sys 2) Qc_ops aexP (xh (ac_sys 2) z) [y; x] = true) ->
  inb (abox [4%Z; 5%Z]) [y; x] = true ->
  sloc_ok (ac_sys 2) Qc_ops aexP c l.
Proof.
  intros -> H1 H2. right. exists [y; x]. split; [cbn; lia|]. split; [exact H2|]. intros z _ Hz. apply H1, Hz.
Qed.
Ltac aex_cin := intros z Hz; cbn in Hz; match type of Hz with (if ?a then _ else _) = _ => destruct a as [Ez|]; [|discriminate Hz] end;
  subst z; reflexivity.
Lemma aex_src : locs_ok (ac_sys 2) Qc_ops aexP (sp_src aexP).
Proof.
  intros c Hc. apply In_ac_allX in Hc. destruct c as [|[|[|d]]]; try lia; cbn [sp_src aexP];
    (constructor; [apply (aex_loc _ _ 1 1); [reflexivity|aex_cin|reflexivity]|]); try constructor.
  - left. reflexivity.
  - constructor.
Qed.
Lemma aex_rec : locs_ok (ac_sys 2) Qc_ops aexP (sp_rec aexP).
Proof.
  intros c Hc. apply In_ac_allX in Hc. destruct c as [|[|[|d]]]; try lia; cbn [sp_rec aexP].
  - constructor; [apply (aex_loc _ _ 2 1); [reflexivity|aex_cin|reflexivity]|constructor].
  - constructor; [apply (aex_loc _ _ 2 2); [reflexivity|aex_cin|reflexivity]|constructor].
  - constructor; [apply (aex_loc _ _ 1 2); [reflexivity|aex_cin|reflexivity]|constructor].
Qed.

Lemma aex_isrc : ign_ok (ac_sys 2) (sp_src aexP).
Proof.
  intros [|d] _; cbn [sp_src aexP]; (constructor; [right; lia|]); try constructor; [left; reflexivity|constructor].
Qed.
Lemma aex_irec : ign_ok (ac_sys 2) (sp_rec aexP).
Proof. intros [|[|d]] _; cbn [sp_rec aexP]; (constructor; [right; lia|]); constructor. Qed.

(** Both sides of the derivative identity. *)
Definition aex_sides (sr nt : Z) : option (Qc * Qc) :=
  match acoustic_forward 2 (dual Qc_ops) (dspar aexP) aexpw (dconst (K := Qc_ops) aex_dt) aex_kb (aexF true) (aexF false) false false sr aex_f nt None
          (fun _ _ _ => o0 (dual Qc_ops)) aex_u,
        acoustic_forward 2 Qc_ops aexP aexpw aex_dt (fun k => are (aex_kb k)) (aexF true) (aexF false) true true sr
          (fun t c => lre (aex_f t c)) nt None (fun _ _ _ => o0 Qc_ops) (ssre aex_u) with
  | Some (uD, rD, _), Some (_, _, stK) =>
      match acoustic_backward 2 Qc_ops aexP aexpw aex_dt (fun k => are (aex_kb k)) (aexB true) (aexB false) true true sr aex_gr nt None stK aex_g with
      | Some (g', gf, gm) =>
          Some (oadd Qc_ops (ac_udot 2 Qc_ops aexP aex_g (ssep uD)) (ac_rdot 2 Qc_ops nt aex_gr (fun t c => lep (rD t c))),
                oadd Qc_ops (oadd Qc_ops (ac_udot 2 Qc_ops aexP g' (ssep aex_u)) (ac_rdot 2 Qc_ops nt gf (fun t c => lep (aex_f t c))))
                            (ac_mdot 2 Qc_ops aexP gm (fun k => aep (aex_kb k))))
      | None => None
      end
  | _, _ => None
  end.

(** ** A narrow model: accuracy 4, no PML, a single column of cells ([x = 2]) visible to the caller. *)
Definition nexpw (d : nat) : Z * Z := (0, 0)%Z.
Definition nexP : spar (ac_sys 2) Qc_ops :=
  @mkspar (ac_sys 2) Qc_ops A4 [6%Z; 4%Z] (fun d => qz 1) (fun _ _ _ => qz 0) (fun _ _ _ => qz 0)
    (fun c => []) (fun c => []).
Definition nex_vis (b e : nat -> Z) (A : bool) := svisits (ac_sys 2) (ac_kern 2) Qc_ops nexP b e A.
Definition nexF A := nex_vis (fpml_b _ _ nexP nexpw) (fpml_e _ _ nexP nexpw) A.
Definition nexB A := nex_vis (bpml_b _ _ nexP nexpw) (bpml_e _ _ nexP nexpw) A.
Definition nex_kb (k : aM) : arr Qc_ops := fun i => qz 1.
(** Upstream gradient: 1 for the final pressure everywhere. *)
Definition nex_g : sst (ac_sys 2) Qc_ops :=
  @mksst (ac_sys 2) Qc_ops (fun x q => match x with XP => qz 1 | _ => qz 0 end) (fun e q => qz 0).
Lemma nex_geom : sgeom (ac_sys 2) Qc_ops nexP nexpw.
Proof.
  split.
  - intros [|[|d]] Hd; cbn in Hd |- *; lia.
  - intros h d y Hd Hy. split; reflexivity.
Qed.
(** Perturbation: the initial [v_x] (no cell of which is ever used: there are no half positions in [x]). *)
Definition nex_u : sst (ac_sys 2) (dual Qc_ops) :=
  @mksst (ac_sys 2) (dual Qc_ops)
    (fun x q => match x with XP => (qz (coord 0 q), qz 0) | XV O => (qz 0, qz 0) | XV _ => (qz 0, qz 1) end)
    (fun e q => (qz 0, qz 0)).
Definition nex_fwdD := acoustic_forward 2 (dual Qc_ops) (dspar nexP) nexpw (dconst (K := Qc_ops) (qz 1)) (fun k i => dconst (K := Qc_ops) (nex_kb k i))
  (nexF true) (nexF false) false false 1 (fun _ _ => []) 1 None (fun _ _ _ => o0 (dual Qc_ops)) nex_u.
Definition nex_bwd := acoustic_backward 2 Qc_ops nexP nexpw (qz 1) nex_kb (nexB true) (nexB false) false false 1 (fun _ _ => []) 1 None
  (fun _ _ _ => o0 Qc_ops) nex_g.
Lemma nz_false (x : Qc) : nz x = false -> x = qz 0.
Proof.
  unfold nz. intros H. apply negb_false_iff in H. apply Qeq_bool_iff in H. apply Qc_is_canon. rewrite H. reflexivity.
Qed.
Lemma nex_wrong : exists uD rD stD g' gf gm,
  nex_fwdD = Some (uD, rD, stD) /\ nex_bwd = Some (g', gf, gm) /\
  ac_udot 2 Qc_ops nexP nex_g (ssep uD) = qz 0 /\ ac_udot 2 Qc_ops nexP g' (ssep nex_u) <> qz 0.
Proof.
  assert (H : match nex_fwdD, nex_bwd with
    | Some (uD, _, _), Some (g', _, _) =>
       negb (nz (ac_udot 2 Qc_ops nexP nex_g (ssep uD))) && nz (ac_udot 2 Qc_ops nexP g' (ssep nex_u))
    | _, _ => false end = true) by (vm_compute; reflexivity).
  destruct nex_fwdD as [[[uD rD] stD]|]; [|discriminate H].
  destruct nex_bwd as [[[g' gf] gm]|]; [|discriminate H].
  apply andb_true_iff in H. destruct H as [H1 H2]. exists uD, rD, stD, g', gf, gm. repeat split.
  - apply negb_true_iff in H1. apply nz_false. exact H1.
  - apply nz_spec. exact H2.
Qed.
Lemma nex_locs : locs_ok (ac_sys 2) Qc_ops nexP (fun _ => []).
Proof. intros c _. constructor. Qed.
Lemma nex_refuted :
  exists (P : spar (ac_sys 2) Qc_ops) pw dt kbD fD u g gr visDA visDB visBA visBB uD rD stD g' gf gm,
    length (sp_shape P) = 2%nat /\ locs_ok (ac_sys 2) Qc_ops P (sp_src P) /\ locs_ok (ac_sys 2) Qc_ops P (sp_rec P) /\
    sgeom (ac_sys 2) Qc_ops P pw /\ (forall k i, snd (kbD k i) = o0 Qc_ops) /\
    ac_fvis 2 Qc_ops P pw true visDA /\ ac_fvis 2 Qc_ops P pw false visDB /\
    ac_bvis 2 Qc_ops P pw true visBA /\ ac_bvis 2 Qc_ops P pw false visBB /\
    acoustic_forward 2 (dual Qc_ops) (dspar P) pw (dconst dt) kbD visDA visDB false false 1 fD 1 None
      (fun _ _ _ => o0 (dual Qc_ops)) u = Some (uD, rD, stD) /\
    acoustic_backward 2 Qc_ops P pw dt (fun k => are (kbD k)) visBA visBB false false 1 gr 1 None
      (fun _ _ _ => o0 Qc_ops) g = Some (g', gf, gm) /\
    oadd Qc_ops (ac_udot 2 Qc_ops P g (ssep uD)) (ac_rdot 2 Qc_ops 1 gr (fun t c => lep (rD t c)))
    <> oadd Qc_ops (ac_udot 2 Qc_ops P g' (ssep u)) (ac_rdot 2 Qc_ops 1 gf (fun t c => lep (fD t c))).
Proof.
  destruct nex_wrong as (uD & rD & stD & g' & gf & gm & E1 & E2 & E3 & E4).
  exists nexP, nexpw, (qz 1), (fun k i => dconst (K := Qc_ops) (nex_kb k i)), (fun _ _ => []), nex_u, nex_g, (fun _ _ => []),
    (nexF true), (nexF false), (nexB true), (nexB false), uD, rD, stD, g', gf, gm.
  split; [reflexivity|]. split; [exact nex_locs|]. split; [exact nex_locs|]. split; [exact nex_geom|].
  split; [reflexivity|]. do 4 (split; [apply Permutation_refl|]).
  split; [exact E1|]. split; [exact E2|]. rewrite E3. intros E. apply E4.
  assert (Z1 : ac_rdot 2 Qc_ops 1 (fun _ _ => []) (fun t c => lep (rD t c)) = o0 Qc_ops) by reflexivity.
  assert (Z2 : ac_rdot 2 Qc_ops 1 gf (fun t c => lep ((fun _ _ => []) t c : list (dual Qc_ops))) = o0 Qc_ops).
  { unfold ac_rdot. apply (sumf_zero Qc_ops Qc_is_ring). intros t _. cbv beta.
    assert (L : forall a : list Qc_ops, ldot a (lep ([] : list (dual Qc_ops))) = o0 Qc_ops) by (intros []; reflexivity).
    rewrite L. rewrite (sumf_zero Qc_ops Qc_is_ring) by (intros; apply L). reflexivity. }
  assert (A : forall b x d : Qc, oadd Qc_ops (qz 0) b = oadd Qc_ops x d -> b = qz 0 -> d = qz 0 -> x = qz 0).
  { intros b x d H -> ->. cbn in H. transitivity (x + qz 0)%Qc; [|rewrite <- H; reflexivity].
    change (qz 0) with 0%Qc. ring. }
  exact (A _ _ _ E Z1 Z2).
Qed.
