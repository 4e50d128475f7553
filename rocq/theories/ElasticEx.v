(** * A concrete elastic problem over the rationals, used by the examples.

    Two dimensions, accuracy 2, 4 x 5 cells including the padding, PML widths 1, 1 and 0, 1. *)
From Coq Require Import List ZArith QArith Qcanon Lia Bool Permutation.
From Verif Require Import Ops Sums Grid Stencil DualNum ScalarModel ScalarRefine ScalarAdjoint ScalarApi ScalarEx
  Stag StagAdj StagKernel StagCell StagRefine StagGrad StagPy AcousticEx ElasticModel ElasticThm ElasticPy.
Import ListNotations.

Definition eexP : spar (el_sys 2) Qc_ops :=
  @mkspar (el_sys 2) Qc_ops A2 [4%Z; 5%Z] (fun d => qq 1 (Pos.of_succ_nat d))
    (aex_prof (fun d => nth d [4%Z; 5%Z] 0%Z) 1 aexpw (fun y => qq y 3))
    (aex_prof (fun d => nth d [4%Z; 5%Z] 0%Z) 1 aexpw (fun y => qq (- y) 2))
    (fun c => match c with CP => [6%Z; IGNORE] | CV _ => [6%Z] end)
    (fun c => match c with CP => [11%Z] | CV O => [12%Z] | CV _ => [7%Z] end).

Definition eex_vis (b e : nat -> Z) (A : bool) := svisits (el_sys 2) (el_kern 2) Qc_ops eexP b e A.
Definition eexF A := eex_vis (fpml_b _ _ eexP aexpw) (fpml_e _ _ eexP aexpw) A.
Definition eexB A := eex_vis (bpml_b _ _ eexP aexpw) (bpml_e _ _ eexP aexpw) A.

Definition eex_dt : Qc := qq 1 2.
Definition eex_md (k : eM) : arr (dual Qc_ops) := fun i =>
  match k with
  | ML => (qz (1 + i mod 3), qz (i - 4)) | MMU => (qz (1 + i mod 2), qz (3 - i)) | MS _ _ => (qq (1 + i mod 4) 2, qz (i + 1))
  | EB d => (qq (1 + i mod 2) 2, qz (2 - i + Z.of_nat d))
  end.
Definition eex_f : krec (el_sys 2) (dual Qc_ops) := fun t c =>
  match c with CP => [(qz (t + 1), qz 2); (qz 5, qz 7)] | CV d => [(qz (2 - t), qz (t + Z.of_nat d))] end.
Definition eex_u : sst (el_sys 2) (dual Qc_ops) :=
  @mksst (el_sys 2) (dual Qc_ops)
    (fun x q => match x with Sg i j => (qz (coord 0 q + 1 + Z.of_nat j), qz (coord 1 q - Z.of_nat i)) | VL d => (qz (2 - coord 1 q), qz (coord 0 q + Z.of_nat d)) end)
    (fun e q => match e with DS d j => (qz (coord 1 q), qz (1 - coord 0 q)) | DV d j => (qz (3 - coord 1 q), qz 1) end).
Definition eex_g : sst (el_sys 2) Qc_ops :=
  @mksst (el_sys 2) Qc_ops (fun x q => match x with Sg i j => qz (coord 0 q - 2) | VL d => qz (coord 1 q + 1) end)
    (fun e q => match e with DS d j => qz (coord 0 q) | DV d j => qz (2 - coord 1 q) end).
Definition eex_gr : krec (el_sys 2) Qc_ops := fun t c => [qz (t + 1)].

Local Opaque IGNORE.
Lemma eex_geom : sgeom (el_sys 2) Qc_ops eexP aexpw.
Proof.
  split.
  - intros [|[|d]] Hd; cbn in Hd |- *; lia.
  - intros h d y Hd Hy. assert (H : aex_zone (fun d => nth d [4%Z; 5%Z] 0%Z) 1 aexpw h d y = true).
    { unfold aex_zone. apply andb_true_iff. rewrite Z.leb_le, Z.ltb_lt. exact Hy. }
    cbn [sp_a sp_b eexP]. unfold aex_prof. rewrite H. split; reflexivity.
Qed.
Lemma eex_room : sroom (el_sys 2) Qc_ops eexP aexpw.
Proof. intros [|[|d]] Hd; cbn in Hd |- *; lia. Qed.

Lemma eex_loc c l y x : l = (y * 5 + x)%Z ->
  (forall z, In z (el_allX 2) -> cin (el_sys 2) c z = true -> dom (el_sys 2) Qc_ops eexP (xh (el_sys 2) z) [y; x] = true) ->
  inb (abox [4%Z; 5%Z]) [y; x] = true ->
  sloc_ok (el_sys 2) Qc_ops eexP c l.
Proof.
  intros -> H1 H2. right. exists [y; x]. split; [cbn; lia|]. split; [exact H2|]. intros z Iz Hz. exact (H1 z Iz Hz).
Qed.
Ltac eex_cin := intros z Iz Hz; cbn in Iz; decompose [or] Iz; subst; try contradiction; try discriminate Hz; reflexivity.
Lemma In_el_allC nd c : In c (el_allC nd) <-> match c with CV d => (d < nd)%nat | CP => True end.
Proof.
  unfold el_allC. rewrite in_app_iff, in_map_iff. cbn. split.
  - intros [(d & <- & Hd)|[<-|[]]]; [apply in_seq in Hd; lia|exact I].
  - destruct c as [d|]; [|auto]. intros Hd. left. exists d. split; [reflexivity|]. apply in_seq. lia.
Qed.
Lemma eex_src : locs_ok (el_sys 2) Qc_ops eexP (sp_src eexP).
Proof.
  intros c Hc. apply In_el_allC in Hc. destruct c as [[|[|d]]|]; try lia; cbn [sp_src eexP];
    (constructor; [apply (eex_loc _ _ 1 1); [reflexivity|eex_cin|reflexivity]|]); try constructor.
  - left. reflexivity.
  - constructor.
Qed.
Lemma eex_rec : locs_ok (el_sys 2) Qc_ops eexP (sp_rec eexP).
Proof.
  intros c Hc. apply In_el_allC in Hc. destruct c as [[|[|d]]|]; try lia; cbn [sp_rec eexP].
  - constructor; [apply (eex_loc _ _ 2 2); [reflexivity|eex_cin|reflexivity]|constructor].
  - constructor; [apply (eex_loc _ _ 1 2); [reflexivity|eex_cin|reflexivity]|constructor].
  - constructor; [apply (eex_loc _ _ 2 1); [reflexivity|eex_cin|reflexivity]|constructor].
Qed.
Lemma eex_isrc : ign_ok (el_sys 2) (sp_src eexP).
Proof.
  intros [d|] _; cbn [sp_src eexP]; (constructor; [right; lia|]); try constructor; [left; reflexivity|constructor].
Qed.
Lemma eex_irec : ign_ok (el_sys 2) (sp_rec eexP).
Proof. intros [[|d]|] _; cbn [sp_rec eexP]; (constructor; [right; lia|]); constructor. Qed.

(** Both sides of the derivative identity. *)
Definition eex_sides (sr nt : Z) : option (Qc * Qc) :=
  match elastic_forward 2 (dual Qc_ops) (dspar eexP) aexpw (dconst (K := Qc_ops) eex_dt) eex_md (eexF true) (eexF false) false false false sr eex_f nt None
          (fun _ _ _ => o0 (dual Qc_ops)) eex_u,
        elastic_forward 2 Qc_ops eexP aexpw eex_dt (fun k => are (eex_md k)) (eexF true) (eexF false) true true true sr
          (fun t c => lre (eex_f t c)) nt None (fun _ _ _ => o0 Qc_ops) (ssre eex_u) with
  | Some (uD, rD, _), Some (_, _, stK) =>
      match elastic_backward 2 Qc_ops eexP aexpw eex_dt (fun k => are (eex_md k)) (eexB true) (eexB false) true true true sr eex_gr nt None stK eex_g with
      | Some (g', gf, gm) =>
          Some (oadd Qc_ops (el_udot 2 Qc_ops eexP eex_g (ssep uD)) (el_rdot 2 Qc_ops nt eex_gr (fun t c => lep (rD t c))),
                oadd Qc_ops (oadd Qc_ops (el_udot 2 Qc_ops eexP g' (ssep eex_u)) (el_rdot 2 Qc_ops nt gf (fun t c => lep (eex_f t c))))
                            (el_mdot 2 Qc_ops eexP gm (fun k => aep (eex_md k))))
      | None => None
      end
  | _, _ => None
  end.

(** ** A narrow model: accuracy 4, no PML, a single column of cells ([x = 2]) visible to the caller. *)
Definition mexP : spar (el_sys 2) Qc_ops :=
  @mkspar (el_sys 2) Qc_ops A4 [6%Z; 4%Z] (fun d => qz 1) (fun _ _ _ => qz 0) (fun _ _ _ => qz 0)
    (fun c => []) (fun c => []).
Definition mex_vis (b e : nat -> Z) (A : bool) := svisits (el_sys 2) (el_kern 2) Qc_ops mexP b e A.
Definition mexF A := mex_vis (fpml_b _ _ mexP nexpw) (fpml_e _ _ mexP nexpw) A.
Definition mexB A := mex_vis (bpml_b _ _ mexP nexpw) (bpml_e _ _ mexP nexpw) A.
Definition mex_md (k : eM) : arr Qc_ops := fun i => qz 1.
(** Upstream gradient: 1 for the final normal stresses everywhere. *)
Definition mex_g : sst (el_sys 2) Qc_ops :=
  @mksst (el_sys 2) Qc_ops (fun x q => match x with Sg i j => qz (if Nat.eqb i j then 1 else 0) | _ => qz 0 end) (fun e q => qz 0).
Lemma mex_geom : sgeom (el_sys 2) Qc_ops mexP nexpw.
Proof.
  split.
  - intros [|[|d]] Hd; cbn in Hd |- *; lia.
  - intros h d y Hd Hy. split; reflexivity.
Qed.
(** Perturbation: the initial [v_x]. *)
Definition mex_u : sst (el_sys 2) (dual Qc_ops) :=
  @mksst (el_sys 2) (dual Qc_ops)
    (fun x q => match x with Sg _ _ => (qz (coord 0 q), qz 0) | VL O => (qz 0, qz 0) | VL _ => (qz 0, qz 1) end)
    (fun e q => (qz 0, qz 0)).
Definition mex_fwdD := elastic_forward 2 (dual Qc_ops) (dspar mexP) nexpw (dconst (K := Qc_ops) (qz 1)) (fun k i => dconst (K := Qc_ops) (mex_md k i))
  (mexF true) (mexF false) false false false 1 (fun _ _ => []) 1 None (fun _ _ _ => o0 (dual Qc_ops)) mex_u.
Definition mex_bwd := elastic_backward 2 Qc_ops mexP nexpw (qz 1) mex_md (mexB true) (mexB false) false false false 1 (fun _ _ => []) 1 None
  (fun _ _ _ => o0 Qc_ops) mex_g.
Lemma mex_wrong : exists uD rD stD g' gf gm,
  mex_fwdD = Some (uD, rD, stD) /\ mex_bwd = Some (g', gf, gm) /\
  el_udot 2 Qc_ops mexP mex_g (ssep uD) = qz 0 /\ el_udot 2 Qc_ops mexP g' (ssep mex_u) <> qz 0.
Proof.
  assert (H : match mex_fwdD, mex_bwd with
    | Some (uD, _, _), Some (g', _, _) =>
       negb (nz (el_udot 2 Qc_ops mexP mex_g (ssep uD))) && nz (el_udot 2 Qc_ops mexP g' (ssep mex_u))
    | _, _ => false end = true) by (vm_compute; reflexivity).
  destruct mex_fwdD as [[[uD rD] stD]|]; [|discriminate H].
  destruct mex_bwd as [[[g' gf] gm]|]; [|discriminate H].
  apply andb_true_iff in H. destruct H as [H1 H2]. exists uD, rD, stD, g', gf, gm. repeat split.
  - apply negb_true_iff in H1. apply nz_false. exact H1.
  - apply nz_spec. exact H2.
Qed.
Lemma mex_locs : locs_ok (el_sys 2) Qc_ops mexP (fun _ => []).
Proof. intros c _. constructor. Qed.
Lemma mex_refuted :
  exists (P : spar (el_sys 2) Qc_ops) pw dt mdD fD u g gr visDA visDB visBA visBB uD rD stD g' gf gm,
    length (sp_shape P) = 2%nat /\ locs_ok (el_sys 2) Qc_ops P (sp_src P) /\ locs_ok (el_sys 2) Qc_ops P (sp_rec P) /\
    sgeom (el_sys 2) Qc_ops P pw /\ (forall k i, snd (mdD k i) = o0 Qc_ops) /\
    el_fvis 2 Qc_ops P pw true visDA /\ el_fvis 2 Qc_ops P pw false visDB /\
    el_bvis 2 Qc_ops P pw true visBA /\ el_bvis 2 Qc_ops P pw false visBB /\
    elastic_forward 2 (dual Qc_ops) (dspar P) pw (dconst dt) mdD visDA visDB false false false 1 fD 1 None
      (fun _ _ _ => o0 (dual Qc_ops)) u = Some (uD, rD, stD) /\
    elastic_backward 2 Qc_ops P pw dt (fun k => are (mdD k)) visBA visBB false false false 1 gr 1 None
      (fun _ _ _ => o0 Qc_ops) g = Some (g', gf, gm) /\
    oadd Qc_ops (el_udot 2 Qc_ops P g (ssep uD)) (el_rdot 2 Qc_ops 1 gr (fun t c => lep (rD t c)))
    <> oadd Qc_ops (el_udot 2 Qc_ops P g' (ssep u)) (el_rdot 2 Qc_ops 1 gf (fun t c => lep (fD t c))).
Proof.
  destruct mex_wrong as (uD & rD & stD & g' & gf & gm & E1 & E2 & E3 & E4).
  exists mexP, nexpw, (qz 1), (fun k i => dconst (K := Qc_ops) (mex_md k i)), (fun _ _ => []), mex_u, mex_g, (fun _ _ => []),
    (mexF true), (mexF false), (mexB true), (mexB false), uD, rD, stD, g', gf, gm.
  split; [reflexivity|]. split; [exact mex_locs|]. split; [exact mex_locs|]. split; [exact mex_geom|].
  split; [reflexivity|]. do 4 (split; [apply Permutation_refl|]).
  split; [exact E1|]. split; [exact E2|]. rewrite E3. intros E. apply E4.
  assert (Z1 : el_rdot 2 Qc_ops 1 (fun _ _ => []) (fun t c => lep (rD t c)) = o0 Qc_ops) by reflexivity.
  assert (Z2 : el_rdot 2 Qc_ops 1 gf (fun t c => lep ((fun _ _ => []) t c : list (dual Qc_ops))) = o0 Qc_ops).
  { unfold el_rdot. apply (sumf_zero Qc_ops Qc_is_ring). intros t _. apply (sumf_zero Qc_ops Qc_is_ring). intros c _. cbv beta.
    destruct (gf t c); reflexivity. }
  assert (A : forall b x d : Qc, oadd Qc_ops (qz 0) b = oadd Qc_ops x d -> b = qz 0 -> d = qz 0 -> x = qz 0).
  { intros b x d H -> ->. cbn in H. transitivity (x + qz 0)%Qc; [|rewrite <- H; reflexivity].
    change (qz 0) with 0%Qc. ring. }
  exact (A _ _ _ E Z1 Z2).
Qed.
