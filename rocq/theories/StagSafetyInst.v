(** * Memory safety of the acoustic and elastic kernels. *)
From Coq Require Import List ZArith QArith Lia Bool.
From Verif Require Import Ops Sums Grid Stencil ScalarModel ScalarRefine Param ShotsModel Shots Safety Stag StagAdj StagKernel StagCell
  StagRefine StagGrad StagParam AcousticModel AcousticThm ElasticModel ElasticThm StagRunInst StagShotsModel StagShots StagShotsRun StagShotsThm
  StagShotsInst StagSafety.
Import ListNotations.
Local Open Scope K_scope.

Lemma sfprog_time (S : sys) (N : kern S) visA visB nt s0 a : In a (sfprog S N visA visB nt s0) -> (s0 <= stime S N a < s0 + nt)%Z.
Proof.
  intros Hx. unfold sfprog in Hx. apply in_flat_map in Hx. destruct Hx as (t & Ht & Hx). apply In_zrange in Ht. rewrite !in_app_iff, !in_map_iff in Hx.
  destruct Hx as [[<-|[]]|[(c & <- & Hc)|[[<-|[]]|[(c & <- & Hc)|[<-|[]]]]]]; cbn [stime]; lia.
Qed.
Lemma sbprog_time (S : sys) (N : kern S) visA visB nt s0 a : In a (sbprog S N visA visB nt s0) -> (s0 - nt <= stime S N a < s0)%Z.
Proof.
  intros Hx. unfold sbprog in Hx. apply in_flat_map in Hx. destruct Hx as (t & Ht & Hx). apply in_rev, In_zrange in Ht. rewrite !in_app_iff, !in_map_iff in Hx.
  destruct Hx as [[<-|[]]|[(c & <- & Hc)|[[<-|[]]|[(c & <- & Hc)|[<-|[]]]]]]; cbn [stime]; lia.
Qed.

Lemma acoustic_forward_reads (nd : nat) (K : ops) (P0 : spar (ac_sys nd) K) (pw : nat -> Z * Z) (NS : Z)
    (nsrc nrec : aX -> Z) (srcs recs : aX -> Z -> Z) (kbat bbat : bool) :
  length (sp_shape P0) = nd -> sgeom (ac_sys nd) K P0 pw ->
  (forall c j, (0 <= j < NS * nsrc c)%Z -> sloc_ok (ac_sys nd) K P0 c (srcs c j)) ->
  (forall c j, (0 <= j < NS * nrec c)%Z -> sloc_ok (ac_sys nd) K P0 c (recs c j)) ->
  forall (dt : K) (kb : aM -> arr K) visA visB kg bg sr f nt s0 nsn ntr l G,
  ac_fvis nd K P0 pw true visA -> ac_fvis nd K P0 pw false visB -> (0 <= s0)%Z -> (s0 + nt <= ntr)%Z ->
  (forall k a, In (k, a) l -> (0 <= k < NS)%Z /\ In a (sfprog (ac_sys nd) (ac_kern nd) visA visB nt s0)) ->
  sdefined (ac_sys nd) (ac_kern nd) K P0 NS (ac_flag kbat bbat) false 0 nsn ntr nrec
    (fold_left (sfexec (ac_sys nd) (ac_kern nd) K P0 (ac_num nd K dt) nsrc nrec srcs recs (ac_flag kbat bbat) kb (ac_flag kg bg) sr f) l G)
    (fold_left (sfexec (ac_sys nd) (ac_kern nd) (opt K) (sgpar (ac_sys nd) K P0) (ac_num nd (opt K) (Some dt)) nsrc nrec srcs recs (ac_flag kbat bbat) (sgmd (ac_sys nd) (ac_kern nd) K P0 NS (ac_flag kbat bbat) kb) (ac_flag kg bg) sr
       (sgrow (ac_sys nd) K NS ntr nsrc f)) l (sgmem (ac_sys nd) (ac_kern nd) K P0 NS (ac_flag kbat bbat) false 0 nsn ntr nrec G)).
Proof.
  intros Hnd Hgeo Hs Hr. ac_oks.
  pose proof (sn_pos _ K P0 pw Hgeo) as Hn.
  assert (Hs' : forall c j, (0 <= j < NS * nsrc c)%Z -> (srcs c j < prodZ (sp_shape P0))%Z) by (intros c j Hj; exact (sloc_lt _ K P0 pw Hgeo c _ (Hs c j Hj))).
  assert (Hr' : forall c j, (0 <= j < NS * nrec c)%Z -> (recs c j < prodZ (sp_shape P0))%Z) by (intros c j Hj; exact (sloc_lt _ K P0 pw Hgeo c _ (Hr c j Hj))).
  intros dt kb visA visB kg bg sr f nt s0 nsn ntr l G VA VB H1 H2 Hl.
  apply (sfexec_all (ac_sys nd) (ac_kern nd) K P0 (ac_num nd K dt) (ac_num nd (opt K) (Some dt)) NS nsrc nrec srcs recs (ac_flag kbat bbat) (fun m m' H => ac_numrel nd K (opt K) (defd K) (defd_ops K) (prodZ (sp_shape P0)) dt (Some dt) m m' eq_refl H) Sok Hk ltac:(lia) Hs' Hr' nsn ntr kb (ac_flag kg bg) sr f visA visB nt s0 l (fv_cell _ _ K P0 pw Hgeo _ _ VA) (fv_cell _ _ K P0 pw Hgeo _ _ VB) H1 H2 Hl).
  apply sgmem_defined.
Qed.

Lemma acoustic_backward_reads (nd : nat) (K : ops) (P0 : spar (ac_sys nd) K) (pw : nat -> Z * Z) (NS : Z)
    (nsrc nrec : aX -> Z) (srcs recs : aX -> Z -> Z) (kbat bbat : bool) :
  length (sp_shape P0) = nd -> sgeom (ac_sys nd) K P0 pw ->
  (forall c j, (0 <= j < NS * nsrc c)%Z -> sloc_ok (ac_sys nd) K P0 c (srcs c j)) ->
  (forall c j, (0 <= j < NS * nrec c)%Z -> sloc_ok (ac_sys nd) K P0 c (recs c j)) ->
  sroom (ac_sys nd) K P0 pw -> forall (dt : K) (kb : aM -> arr K) visA visB kg bg sr gr cf s nsn ntr nthr th sched G,
  ac_bvis nd K P0 pw true visA -> ac_bvis nd K P0 pw false visB ->
  (0 < sr)%Z -> (0 <= cf)%Z -> (0 <= s)%Z -> (s * sr <= ntr)%Z -> (ntr <= nsn * sr)%Z ->
  (forall k, (0 <= k < NS)%Z -> (0 <= th s k < nthr)%Z) ->
  (forall k a, In (k, a) (sched s) -> (0 <= k < NS)%Z /\ In a (sbprog (ac_sys nd) (ac_kern nd) visA visB (Z.min s cf * sr) (s * sr))) ->
  sdefined (ac_sys nd) (ac_kern nd) K P0 NS (ac_flag kbat bbat) true nthr nsn ntr nsrc
    (sbatch_bchunk (ac_sys nd) (ac_kern nd) K P0 (ac_num nd K dt) nsrc nrec srcs recs (ac_flag kbat bbat) (fun _ => true) nthr th kb (ac_flag kg bg) sr gr sched cf G s)
    (sbatch_bchunk (ac_sys nd) (ac_kern nd) (opt K) (sgpar (ac_sys nd) K P0) (ac_num nd (opt K) (Some dt)) nsrc nrec srcs recs (ac_flag kbat bbat) (fun _ => true) nthr th (sgmd (ac_sys nd) (ac_kern nd) K P0 NS (ac_flag kbat bbat) kb) (ac_flag kg bg) sr
       (sgrow (ac_sys nd) K NS ntr nrec gr) sched cf (sgmem (ac_sys nd) (ac_kern nd) K P0 NS (ac_flag kbat bbat) true nthr nsn ntr nsrc G) s).
Proof.
  intros Hnd Hgeo Hs Hr. ac_oks.
  pose proof (sn_pos _ K P0 pw Hgeo) as Hn.
  assert (Hs' : forall c j, (0 <= j < NS * nsrc c)%Z -> (srcs c j < prodZ (sp_shape P0))%Z) by (intros c j Hj; exact (sloc_lt _ K P0 pw Hgeo c _ (Hs c j Hj))).
  assert (Hr' : forall c j, (0 <= j < NS * nrec c)%Z -> (recs c j < prodZ (sp_shape P0))%Z) by (intros c j Hj; exact (sloc_lt _ K P0 pw Hgeo c _ (Hr c j Hj))).
  intros Hroom dt kb visA visB kg bg sr gr cf s nsn ntr nthr th sched G VA VB H1 H2 H3 H4 H5 Hth Hl.
  apply (sbchunk_defd (ac_sys nd) (ac_kern nd) K P0 (ac_num nd K dt) (ac_num nd (opt K) (Some dt)) NS nsrc nrec srcs recs (ac_flag kbat bbat) (fun _ => true) (fun m m' H => ac_numrel nd K (opt K) (defd K) (defd_ops K) (prodZ (sp_shape P0)) dt (Some dt) m m' eq_refl H) Sok Hk ltac:(lia) Hs' Hr' nthr nsn ntr kb (ac_flag kg bg) sr gr sched cf th visA visB s
    G _ (bv_cell _ _ K P0 pw Hgeo _ _ Hroom VA) (bv_cell _ _ K P0 pw Hgeo _ _ Hroom VB) H1 H2 H3 H4 H5 Hth Hl).
  apply sgmem_defined.
Qed.

Lemma acoustic_forward_writes (nd : nat) (K : ops) (P0 : spar (ac_sys nd) K) (pw : nat -> Z * Z) (NS : Z)
    (nsrc nrec : aX -> Z) (srcs recs : aX -> Z -> Z) (kbat bbat : bool) :
  length (sp_shape P0) = nd -> sgeom (ac_sys nd) K P0 pw ->
  (forall c j, (0 <= j < NS * nsrc c)%Z -> sloc_ok (ac_sys nd) K P0 c (srcs c j)) ->
  (forall c j, (0 <= j < NS * nrec c)%Z -> sloc_ok (ac_sys nd) K P0 c (recs c j)) ->
  forall (dt : K) (kb : aM -> arr K) visA visB kg bg sr f nt s0 G k a,
  ac_fvis nd K P0 pw true visA -> ac_fvis nd K P0 pw false visB -> (0 <= k < NS)%Z ->
  In a (sfprog (ac_sys nd) (ac_kern nd) visA visB nt s0) -> (0 < sr)%Z ->
  let n := prodZ (sp_shape P0) in
  let G' := sfexec (ac_sys nd) (ac_kern nd) K P0 (ac_num nd K dt) nsrc nrec srcs recs (ac_flag kbat bbat) kb (ac_flag kg bg) sr f G (k, a) in
  (forall v j, ~ (k * n <= j < k * n + n)%Z -> G_m _ _ K G' v j = G_m _ _ K G v j) /\
  (forall q si j, ~ (s0 / sr <= si <= (s0 + nt - 1) / sr)%Z -> G_m _ _ K G' (VQ q si) j = G_m _ _ K G (VQ q si) j) /\
  (forall q j, G_m _ _ K G' (VG q) j = G_m _ _ K G (VG q) j) /\
  (forall t c j, ~ (s0 <= t < s0 + nt)%Z \/ ~ (k * nrec c <= j < k * nrec c + nrec c)%Z -> G_r _ _ K G' t c j = G_r _ _ K G t c j) /\
  (forall q, G_g _ _ K G' q = G_g _ _ K G q).
Proof.
  intros Hnd Hgeo Hs Hr. ac_oks.
  pose proof (sn_pos _ K P0 pw Hgeo) as Hn.
  assert (Hs' : forall c j, (0 <= j < NS * nsrc c)%Z -> (srcs c j < prodZ (sp_shape P0))%Z) by (intros c j Hj; exact (sloc_lt _ K P0 pw Hgeo c _ (Hs c j Hj))).
  assert (Hr' : forall c j, (0 <= j < NS * nrec c)%Z -> (recs c j < prodZ (sp_shape P0))%Z) by (intros c j Hj; exact (sloc_lt _ K P0 pw Hgeo c _ (Hr c j Hj))).
  intros dt kb visA visB kg bg sr f nt s0 G k a VA VB Hk0 Ha Hsr n G'.
  pose proof (sfprog_time _ _ _ _ _ _ _ Ha) as Ht.
  destruct (sf_writes (ac_sys nd) (ac_kern nd) K P0 (ac_num nd K dt) NS nsrc nrec srcs recs (ac_flag kbat bbat) Hs' kb (ac_flag kg bg) sr f G k a Hk0
    (sfprog_aok _ _ K P0 visA visB nt s0 a (fv_cell _ _ K P0 pw Hgeo _ _ VA) (fv_cell _ _ K P0 pw Hgeo _ _ VB) Ha)) as (W1 & W2 & _ & W3 & W4 & W5).
  split; [exact W1|]. split; [|split; [exact W3|split; [|intros q; unfold G'; rewrite W5; reflexivity]]].
  - intros q si j Hq. apply W2. intros ->. apply Hq. split; apply Z.div_le_mono; lia.
  - intros t c j [H|H]; apply W4; [left; lia|right; exact H].
Qed.

Lemma acoustic_backward_writes (nd : nat) (K : ops) (P0 : spar (ac_sys nd) K) (pw : nat -> Z * Z) (NS : Z)
    (nsrc nrec : aX -> Z) (srcs recs : aX -> Z -> Z) (kbat bbat : bool) :
  length (sp_shape P0) = nd -> sgeom (ac_sys nd) K P0 pw ->
  (forall c j, (0 <= j < NS * nsrc c)%Z -> sloc_ok (ac_sys nd) K P0 c (srcs c j)) ->
  (forall c j, (0 <= j < NS * nrec c)%Z -> sloc_ok (ac_sys nd) K P0 c (recs c j)) ->
  sroom (ac_sys nd) K P0 pw -> forall (dt : K) (kb : aM -> arr K) visA visB kg bg sr gr nt s0 (th : Z -> Z) G k a,
  ac_bvis nd K P0 pw true visA -> ac_bvis nd K P0 pw false visB -> (0 <= k < NS)%Z ->
  In a (sbprog (ac_sys nd) (ac_kern nd) visA visB nt s0) ->
  let n := prodZ (sp_shape P0) in
  let G' := sbexec (ac_sys nd) (ac_kern nd) K P0 (ac_num nd K dt) nsrc nrec srcs recs (ac_flag kbat bbat) th kb (ac_flag kg bg) sr gr s0 G (k, a) in
  (forall v j, match v with VG _ => False | _ => True end -> ~ (k * n <= j < k * n + n)%Z -> G_m _ _ K G' v j = G_m _ _ K G v j) /\
  (forall q j, let b := (if ac_flag kbat bbat q then k else th k) in ~ (b * n <= j < b * n + n)%Z -> G_m _ _ K G' (VG q) j = G_m _ _ K G (VG q) j) /\
  (forall q si j, G_m _ _ K G' (VQ q si) j = G_m _ _ K G (VQ q si) j) /\
  (forall t c j, ~ (s0 - nt <= t < s0)%Z \/ ~ (k * nsrc c <= j < k * nsrc c + nsrc c)%Z -> G_r _ _ K G' t c j = G_r _ _ K G t c j) /\
  (forall q, G_g _ _ K G' q = G_g _ _ K G q).
Proof.
  intros Hnd Hgeo Hs Hr. ac_oks.
  pose proof (sn_pos _ K P0 pw Hgeo) as Hn.
  assert (Hs' : forall c j, (0 <= j < NS * nsrc c)%Z -> (srcs c j < prodZ (sp_shape P0))%Z) by (intros c j Hj; exact (sloc_lt _ K P0 pw Hgeo c _ (Hs c j Hj))).
  assert (Hr' : forall c j, (0 <= j < NS * nrec c)%Z -> (recs c j < prodZ (sp_shape P0))%Z) by (intros c j Hj; exact (sloc_lt _ K P0 pw Hgeo c _ (Hr c j Hj))).
  intros Hroom dt kb visA visB kg bg sr gr nt s0 th G k a VA VB Hk0 Ha n G'.
  pose proof (sbprog_time _ _ _ _ _ _ _ Ha) as Ht.
  destruct (sb_writes (ac_sys nd) (ac_kern nd) K P0 (ac_num nd K dt) NS nsrc nrec srcs recs (ac_flag kbat bbat) Hr' th kb (ac_flag kg bg) sr gr s0 G k a Hk0
    (sbprog_aok _ _ K P0 s0 visA visB nt a (bv_cell _ _ K P0 pw Hgeo _ _ Hroom VA) (bv_cell _ _ K P0 pw Hgeo _ _ Hroom VB) Ha)) as (W1 & W2 & W4 & W5).
  split; [|split; [|split; [exact W2|split; [|intros q; unfold G'; rewrite W5; reflexivity]]]].
  - intros v j Hv Hj. apply W1. destruct v; [exact Hj..|contradiction].
  - intros q j b Hj. apply (W1 (VG q)). exact Hj.
  - intros t c j [H|H]; apply W4; [left; lia|right; exact H].
Qed.

Lemma elastic_forward_reads (nd : nat) (K : ops) (P0 : spar (el_sys nd) K) (pw : nat -> Z * Z) (NS : Z)
    (nsrc nrec : eC -> Z) (srcs recs : eC -> Z -> Z) (lbat mbat bbat : bool) :
  length (sp_shape P0) = nd -> (0 < nd)%nat -> sgeom (el_sys nd) K P0 pw ->
  (forall c j, (0 <= j < NS * nsrc c)%Z -> sloc_ok (el_sys nd) K P0 c (srcs c j)) ->
  (forall c j, (0 <= j < NS * nrec c)%Z -> sloc_ok (el_sys nd) K P0 c (recs c j)) ->
  forall (dt : K) (md : eM -> arr K) visA visB lg mg bg sr f nt s0 nsn ntr l G,
  el_fvis nd K P0 pw true visA -> el_fvis nd K P0 pw false visB -> (0 <= s0)%Z -> (s0 + nt <= ntr)%Z ->
  (forall k a, In (k, a) l -> (0 <= k < NS)%Z /\ In a (sfprog (el_sys nd) (el_kern nd) visA visB nt s0)) ->
  sdefined (el_sys nd) (el_kern nd) K P0 NS (el_fm lbat mbat bbat) false 0 nsn ntr nrec
    (fold_left (sfexec (el_sys nd) (el_kern nd) K P0 (el_num nd K dt) nsrc nrec srcs recs (el_fm lbat mbat bbat) md (el_fq lg mg bg) sr f) l G)
    (fold_left (sfexec (el_sys nd) (el_kern nd) (opt K) (sgpar (el_sys nd) K P0) (el_num nd (opt K) (Some dt)) nsrc nrec srcs recs (el_fm lbat mbat bbat) (sgmd (el_sys nd) (el_kern nd) K P0 NS (el_fm lbat mbat bbat) md) (el_fq lg mg bg) sr
       (sgrow (el_sys nd) K NS ntr nsrc f)) l (sgmem (el_sys nd) (el_kern nd) K P0 NS (el_fm lbat mbat bbat) false 0 nsn ntr nrec G)).
Proof.
  intros Hnd Hpos Hgeo Hs Hr. el_oks.
  pose proof (sn_pos _ K P0 pw Hgeo) as Hn.
  assert (Hs' : forall c j, (0 <= j < NS * nsrc c)%Z -> (srcs c j < prodZ (sp_shape P0))%Z) by (intros c j Hj; exact (sloc_lt _ K P0 pw Hgeo c _ (Hs c j Hj))).
  assert (Hr' : forall c j, (0 <= j < NS * nrec c)%Z -> (recs c j < prodZ (sp_shape P0))%Z) by (intros c j Hj; exact (sloc_lt _ K P0 pw Hgeo c _ (Hr c j Hj))).
  intros dt md visA visB lg mg bg sr f nt s0 nsn ntr l G VA VB H1 H2 Hl.
  apply (sfexec_all (el_sys nd) (el_kern nd) K P0 (el_num nd K dt) (el_num nd (opt K) (Some dt)) NS nsrc nrec srcs recs (el_fm lbat mbat bbat) (fun m m' H => el_numrel nd K (opt K) (defd K) (defd_ops K) (prodZ (sp_shape P0)) dt (Some dt) m m' eq_refl H) Sok Hk ltac:(lia) Hs' Hr' nsn ntr md (el_fq lg mg bg) sr f visA visB nt s0 l (fv_cell _ _ K P0 pw Hgeo _ _ VA) (fv_cell _ _ K P0 pw Hgeo _ _ VB) H1 H2 Hl).
  apply sgmem_defined.
Qed.

Lemma elastic_backward_reads (nd : nat) (K : ops) (P0 : spar (el_sys nd) K) (pw : nat -> Z * Z) (NS : Z)
    (nsrc nrec : eC -> Z) (srcs recs : eC -> Z -> Z) (lbat mbat bbat : bool) :
  length (sp_shape P0) = nd -> (0 < nd)%nat -> sgeom (el_sys nd) K P0 pw ->
  (forall c j, (0 <= j < NS * nsrc c)%Z -> sloc_ok (el_sys nd) K P0 c (srcs c j)) ->
  (forall c j, (0 <= j < NS * nrec c)%Z -> sloc_ok (el_sys nd) K P0 c (recs c j)) ->
  sroom (el_sys nd) K P0 pw -> forall (dt : K) (md : eM -> arr K) visA visB lg mg bg sr gr cf s nsn ntr nthr th sched G,
  el_bvis nd K P0 pw true visA -> el_bvis nd K P0 pw false visB ->
  (0 < sr)%Z -> (0 <= cf)%Z -> (0 <= s)%Z -> (s * sr <= ntr)%Z -> (ntr <= nsn * sr)%Z ->
  (forall k, (0 <= k < NS)%Z -> (0 <= th s k < nthr)%Z) ->
  (forall k a, In (k, a) (sched s) -> (0 <= k < NS)%Z /\ In a (sbprog (el_sys nd) (el_kern nd) visA visB (Z.min s cf * sr) (s * sr))) ->
  sdefined (el_sys nd) (el_kern nd) K P0 NS (el_fm lbat mbat bbat) true nthr nsn ntr nsrc
    (sbatch_bchunk (el_sys nd) (el_kern nd) K P0 (el_num nd K dt) nsrc nrec srcs recs (el_fm lbat mbat bbat) (el_cmb nd K P0) nthr th md (el_fm lg mg bg) sr gr sched cf G s)
    (sbatch_bchunk (el_sys nd) (el_kern nd) (opt K) (sgpar (el_sys nd) K P0) (el_num nd (opt K) (Some dt)) nsrc nrec srcs recs (el_fm lbat mbat bbat) (el_cmb nd K P0) nthr th (sgmd (el_sys nd) (el_kern nd) K P0 NS (el_fm lbat mbat bbat) md) (el_fm lg mg bg) sr
       (sgrow (el_sys nd) K NS ntr nrec gr) sched cf (sgmem (el_sys nd) (el_kern nd) K P0 NS (el_fm lbat mbat bbat) true nthr nsn ntr nsrc G) s).
Proof.
  intros Hnd Hpos Hgeo Hs Hr. el_oks.
  pose proof (sn_pos _ K P0 pw Hgeo) as Hn.
  assert (Hs' : forall c j, (0 <= j < NS * nsrc c)%Z -> (srcs c j < prodZ (sp_shape P0))%Z) by (intros c j Hj; exact (sloc_lt _ K P0 pw Hgeo c _ (Hs c j Hj))).
  assert (Hr' : forall c j, (0 <= j < NS * nrec c)%Z -> (recs c j < prodZ (sp_shape P0))%Z) by (intros c j Hj; exact (sloc_lt _ K P0 pw Hgeo c _ (Hr c j Hj))).
  intros Hroom dt md visA visB lg mg bg sr gr cf s nsn ntr nthr th sched G VA VB H1 H2 H3 H4 H5 Hth Hl.
  apply (sbchunk_defd (el_sys nd) (el_kern nd) K P0 (el_num nd K dt) (el_num nd (opt K) (Some dt)) NS nsrc nrec srcs recs (el_fm lbat mbat bbat) (el_cmb nd K P0) (fun m m' H => el_numrel nd K (opt K) (defd K) (defd_ops K) (prodZ (sp_shape P0)) dt (Some dt) m m' eq_refl H) Sok Hk ltac:(lia) Hs' Hr' nthr nsn ntr md (el_fm lg mg bg) sr gr sched cf th visA visB s
    G _ (bv_cell _ _ K P0 pw Hgeo _ _ Hroom VA) (bv_cell _ _ K P0 pw Hgeo _ _ Hroom VB) H1 H2 H3 H4 H5 Hth Hl).
  apply sgmem_defined.
Qed.

Lemma elastic_forward_writes (nd : nat) (K : ops) (P0 : spar (el_sys nd) K) (pw : nat -> Z * Z) (NS : Z)
    (nsrc nrec : eC -> Z) (srcs recs : eC -> Z -> Z) (lbat mbat bbat : bool) :
  length (sp_shape P0) = nd -> (0 < nd)%nat -> sgeom (el_sys nd) K P0 pw ->
  (forall c j, (0 <= j < NS * nsrc c)%Z -> sloc_ok (el_sys nd) K P0 c (srcs c j)) ->
  (forall c j, (0 <= j < NS * nrec c)%Z -> sloc_ok (el_sys nd) K P0 c (recs c j)) ->
  forall (dt : K) (md : eM -> arr K) visA visB lg mg bg sr f nt s0 G k a,
  el_fvis nd K P0 pw true visA -> el_fvis nd K P0 pw false visB -> (0 <= k < NS)%Z ->
  In a (sfprog (el_sys nd) (el_kern nd) visA visB nt s0) -> (0 < sr)%Z ->
  let n := prodZ (sp_shape P0) in
  let G' := sfexec (el_sys nd) (el_kern nd) K P0 (el_num nd K dt) nsrc nrec srcs recs (el_fm lbat mbat bbat) md (el_fq lg mg bg) sr f G (k, a) in
  (forall v j, ~ (k * n <= j < k * n + n)%Z -> G_m _ _ K G' v j = G_m _ _ K G v j) /\
  (forall q si j, ~ (s0 / sr <= si <= (s0 + nt - 1) / sr)%Z -> G_m _ _ K G' (VQ q si) j = G_m _ _ K G (VQ q si) j) /\
  (forall q j, G_m _ _ K G' (VG q) j = G_m _ _ K G (VG q) j) /\
  (forall t c j, ~ (s0 <= t < s0 + nt)%Z \/ ~ (k * nrec c <= j < k * nrec c + nrec c)%Z -> G_r _ _ K G' t c j = G_r _ _ K G t c j) /\
  (forall q, G_g _ _ K G' q = G_g _ _ K G q).
Proof.
  intros Hnd Hpos Hgeo Hs Hr. el_oks.
  pose proof (sn_pos _ K P0 pw Hgeo) as Hn.
  assert (Hs' : forall c j, (0 <= j < NS * nsrc c)%Z -> (srcs c j < prodZ (sp_shape P0))%Z) by (intros c j Hj; exact (sloc_lt _ K P0 pw Hgeo c _ (Hs c j Hj))).
  assert (Hr' : forall c j, (0 <= j < NS * nrec c)%Z -> (recs c j < prodZ (sp_shape P0))%Z) by (intros c j Hj; exact (sloc_lt _ K P0 pw Hgeo c _ (Hr c j Hj))).
  intros dt md visA visB lg mg bg sr f nt s0 G k a VA VB Hk0 Ha Hsr n G'.
  pose proof (sfprog_time _ _ _ _ _ _ _ Ha) as Ht.
  destruct (sf_writes (el_sys nd) (el_kern nd) K P0 (el_num nd K dt) NS nsrc nrec srcs recs (el_fm lbat mbat bbat) Hs' md (el_fq lg mg bg) sr f G k a Hk0
    (sfprog_aok _ _ K P0 visA visB nt s0 a (fv_cell _ _ K P0 pw Hgeo _ _ VA) (fv_cell _ _ K P0 pw Hgeo _ _ VB) Ha)) as (W1 & W2 & _ & W3 & W4 & W5).
  split; [exact W1|]. split; [|split; [exact W3|split; [|intros q; unfold G'; rewrite W5; reflexivity]]].
  - intros q si j Hq. apply W2. intros ->. apply Hq. split; apply Z.div_le_mono; lia.
  - intros t c j [H|H]; apply W4; [left; lia|right; exact H].
Qed.

Lemma elastic_backward_writes (nd : nat) (K : ops) (P0 : spar (el_sys nd) K) (pw : nat -> Z * Z) (NS : Z)
    (nsrc nrec : eC -> Z) (srcs recs : eC -> Z -> Z) (lbat mbat bbat : bool) :
  length (sp_shape P0) = nd -> (0 < nd)%nat -> sgeom (el_sys nd) K P0 pw ->
  (forall c j, (0 <= j < NS * nsrc c)%Z -> sloc_ok (el_sys nd) K P0 c (srcs c j)) ->
  (forall c j, (0 <= j < NS * nrec c)%Z -> sloc_ok (el_sys nd) K P0 c (recs c j)) ->
  sroom (el_sys nd) K P0 pw -> forall (dt : K) (md : eM -> arr K) visA visB lg mg bg sr gr nt s0 (th : Z -> Z) G k a,
  el_bvis nd K P0 pw true visA -> el_bvis nd K P0 pw false visB -> (0 <= k < NS)%Z ->
  In a (sbprog (el_sys nd) (el_kern nd) visA visB nt s0) ->
  let n := prodZ (sp_shape P0) in
  let G' := sbexec (el_sys nd) (el_kern nd) K P0 (el_num nd K dt) nsrc nrec srcs recs (el_fm lbat mbat bbat) th md (el_fm lg mg bg) sr gr s0 G (k, a) in
  (forall v j, match v with VG _ => False | _ => True end -> ~ (k * n <= j < k * n + n)%Z -> G_m _ _ K G' v j = G_m _ _ K G v j) /\
  (forall q j, let b := (if el_fm lbat mbat bbat q then k else th k) in ~ (b * n <= j < b * n + n)%Z -> G_m _ _ K G' (VG q) j = G_m _ _ K G (VG q) j) /\
  (forall q si j, G_m _ _ K G' (VQ q si) j = G_m _ _ K G (VQ q si) j) /\
  (forall t c j, ~ (s0 - nt <= t < s0)%Z \/ ~ (k * nsrc c <= j < k * nsrc c + nsrc c)%Z -> G_r _ _ K G' t c j = G_r _ _ K G t c j) /\
  (forall q, G_g _ _ K G' q = G_g _ _ K G q).
Proof.
  intros Hnd Hpos Hgeo Hs Hr. el_oks.
  pose proof (sn_pos _ K P0 pw Hgeo) as Hn.
  assert (Hs' : forall c j, (0 <= j < NS * nsrc c)%Z -> (srcs c j < prodZ (sp_shape P0))%Z) by (intros c j Hj; exact (sloc_lt _ K P0 pw Hgeo c _ (Hs c j Hj))).
  assert (Hr' : forall c j, (0 <= j < NS * nrec c)%Z -> (recs c j < prodZ (sp_shape P0))%Z) by (intros c j Hj; exact (sloc_lt _ K P0 pw Hgeo c _ (Hr c j Hj))).
  intros Hroom dt md visA visB lg mg bg sr gr nt s0 th G k a VA VB Hk0 Ha n G'.
  pose proof (sbprog_time _ _ _ _ _ _ _ Ha) as Ht.
  destruct (sb_writes (el_sys nd) (el_kern nd) K P0 (el_num nd K dt) NS nsrc nrec srcs recs (el_fm lbat mbat bbat) Hr' th md (el_fm lg mg bg) sr gr s0 G k a Hk0
    (sbprog_aok _ _ K P0 s0 visA visB nt a (bv_cell _ _ K P0 pw Hgeo _ _ Hroom VA) (bv_cell _ _ K P0 pw Hgeo _ _ Hroom VB) Ha)) as (W1 & W2 & W4 & W5).
  split; [|split; [|split; [exact W2|split; [|intros q; unfold G'; rewrite W5; reflexivity]]]].
  - intros v j Hv Hj. apply W1. destruct v; [exact Hj..|contradiction].
  - intros q j b Hj. apply (W1 (VG q)). exact Hj.
  - intros t c j [H|H]; apply W4; [left; lia|right; exact H].
Qed.

