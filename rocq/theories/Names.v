(** Names and orders of tensors: initial wavefields given by name, the lists passed to the compiled functions, the dictionaries
    given to callbacks, and the order of outputs and gradients. Tensors are elements of an arbitrary type [T]. *)
From Coq Require Import String List Bool Arith.
From Verif Require Import AbiTables Abi.
Import ListNotations.
Local Open Scope string_scope.
Local Open Scope list_scope.
Local Infix "+++" := String.append (at level 60, right associativity).

Section Names.
Context {T : Type}.

(** Python dictionaries: the latest assignment comes first, so that [lookup] finds it. *)
Definition dict := list (string * T).
Definition setitem (d : dict) (k : string) (x : T) : dict := (k, x) :: d.
Definition update (d e : dict) : dict := e ++ d.
Definition dict_zip (ks : list string) (xs : list T) : dict :=
  fold_left (fun d kx => setitem d (fst kx) (snd kx)) (combine ks xs) [].

(** The parameters of a compiled function when it is called with [args]. *)
Definition bound (y : symbol) (args : list T) : dict := combine (map snd (params y)) args.

Definition sl (a b : nat) (l : list T) : list T := firstn (b - a) (skipn a l).
(** [a[i:j], b[k:m] = b[k:m], a[i:j]] for parts of equal length. *)
Definition put (l : list T) (i : nat) (x : list T) : list T := firstn i l ++ x ++ skipn (i + length x) l.

(** ** Scalar *)

(** scalar.py:430-449 *)
Definition scalar_initial (nd : nat) (arg : string -> T) : list T :=
  let psi := if_ (Nat.eqb nd 3) [arg "psiz_m1"] ++ if_ (Nat.leb 2 nd) [arg "psiy_m1"] ++ if_ (Nat.leb 1 nd) [arg "psix_m1"] in
  let zeta := if_ (Nat.eqb nd 3) [arg "zetaz_m1"] ++ if_ (Nat.leb 2 nd) [arg "zetay_m1"] ++ if_ (Nat.leb 1 nd) [arg "zetax_m1"] in
  [arg "wavefield_0"; arg "wavefield_m1"] ++ psi ++ zeta.
(** The variables wfc, wfp, psi, zeta (scalar.py:757-762) as one list; padding and zeroing keep the order. *)
Definition reg_wfc (d : T) (l : list T) := nth 0 l d.
Definition reg_wfp (d : T) (l : list T) := nth 1 l d.
Definition reg_psi (nd : nat) (l : list T) := sl 0 nd (skipn 2 l).
Definition reg_zeta (nd : nat) (l : list T) := skipn nd (skipn 2 l).
(** scalar.py:878-890 (forward) and 1254-1264 (backward), up to the arguments after the wavefields. *)
Definition scalar_fwd_args (v f wfc wfp : T) (psi psin zeta rest : list T) : list T :=
  [v; f; wfc; wfp] ++ psi ++ psin ++ zeta ++ rest.
Definition scalar_bwd_args (v2dt2 gr wfc wfp : T) (psi psin zeta zetan rest : list T) : list T :=
  [v2dt2; gr; wfc; wfp] ++ psi ++ psin ++ zeta ++ zetan ++ rest.
(** scalar.py:855-861, 1304-1314 *)
Definition scalar_cb (nd : nat) (wfc wfp : T) (psi zeta : list T) : dict :=
  fold_left (fun d (e : string * (T * T)) =>
      setitem (setitem d ("psi" +++ fst e +++ "_m1") (fst (snd e))) ("zeta" +++ fst e +++ "_m1") (snd (snd e)))
    (combine (dims nd) (combine psi zeta)) (setitem (setitem [] "wavefield_0" wfc) "wavefield_m1" wfp).
(** scalar.py:2046-2055: the same dictionary from the list of wavefields. *)
Definition scalar_python_cb (d : T) (nd : nat) (w : list T) : dict :=
  scalar_cb nd (nth 0 w d) (nth 1 w d) (map (fun i => nth (2 + i) w d) (seq 0 nd)) (map (fun i => nth (2 + nd + i) w d) (seq 0 nd)).
(** scalar.py:928-934 (padding removed) *)
Definition scalar_ret (wfc wfp : T) (psi zeta : list T) (r : T) : list T := [wfc; wfp] ++ psi ++ zeta ++ [r].

(** ** Scalar Born *)

(** scalar_born.py:392-421 *)
Definition born_initial (nd : nat) (arg : string -> T) : list T :=
  let three p s := if_ (Nat.eqb nd 3) [arg (p +++ "z" +++ s)] ++ if_ (Nat.leb 2 nd) [arg (p +++ "y" +++ s)]
                   ++ if_ (Nat.leb 1 nd) [arg (p +++ "x" +++ s)] in
  [arg "wavefield_0"; arg "wavefield_m1"] ++ three "psi" "_m1" ++ three "zeta" "_m1"
  ++ [arg "wavefield_sc_0"; arg "wavefield_sc_m1"] ++ three "psi" "_sc_m1" ++ three "zeta" "_sc_m1".
(** scalar_born.py:761-769 *)
Definition born_bg (nd : nat) (l : list T) : list T := sl 0 (2 + 2 * nd) l.
Definition born_sc (nd : nat) (l : list T) : list T := skipn (2 + 2 * nd) l.
(** scalar_born.py:860-876, 1173-1192, 1298-1306 *)
Definition born_fwd_args (v scatter f fsc : T) (wfc wfp : T) (psi psin zeta : list T) (wfcsc wfpsc : T) (psisc psinsc zetasc rest : list T) : list T :=
  [v; scatter; f; fsc; wfc; wfp] ++ psi ++ psin ++ zeta ++ [wfcsc; wfpsc] ++ psisc ++ psinsc ++ zetasc ++ rest.
Definition born_bwd_args (v scatter gr grsc : T) (wfc wfp : T) (psi psin zeta zetan : list T) (wfcsc wfpsc : T)
    (psisc psinsc zetasc zetansc rest : list T) : list T :=
  [v; scatter; gr; grsc; wfc; wfp] ++ psi ++ psin ++ zeta ++ zetan ++ [wfcsc; wfpsc] ++ psisc ++ psinsc ++ zetasc ++ zetansc ++ rest.
Definition born_sc_args (v grsc wfcsc wfpsc : T) (psisc psinsc zetasc zetansc rest : list T) : list T :=
  [v; grsc; wfcsc; wfpsc] ++ psisc ++ psinsc ++ zetasc ++ zetansc ++ rest.
(** scalar_born.py:832-846, 1265-1283 *)
Definition born_cb (nd : nat) (wfc wfp wfcsc wfpsc : T) (psi zeta psisc zetasc : list T) : dict :=
  fold_left (fun d (e : string * ((T * T) * (T * T))) =>
      setitem (setitem (setitem (setitem d ("psi" +++ fst e +++ "_m1") (fst (fst (snd e)))) ("zeta" +++ fst e +++ "_m1") (snd (fst (snd e))))
        ("psi" +++ fst e +++ "_sc_m1") (fst (snd (snd e)))) ("zeta" +++ fst e +++ "_sc_m1") (snd (snd (snd e))))
    (combine (dims nd) (combine (combine psi zeta) (combine psisc zetasc)))
    (setitem (setitem (setitem (setitem [] "wavefield_0" wfc) "wavefield_m1" wfp) "wavefield_sc_0" wfcsc) "wavefield_sc_m1" wfpsc).
(** scalar_born.py:1359-1369: only the scattered part is propagated backward. *)
Definition born_sc_cb (nd : nat) (wfcsc wfpsc : T) (psisc zetasc : list T) : dict :=
  fold_left (fun d (e : string * (T * T)) =>
      setitem (setitem d ("psi" +++ fst e +++ "_sc_m1") (fst (snd e))) ("zeta" +++ fst e +++ "_sc_m1") (snd (snd e)))
    (combine (dims nd) (combine psisc zetasc)) (setitem (setitem [] "wavefield_sc_0" wfcsc) "wavefield_sc_m1" wfpsc).
(** scalar_born.py:1651-1667 *)
Definition born_python_cb (d : T) (nd : nat) (w : list T) : dict :=
  born_cb nd (nth 0 w d) (nth 1 w d) (nth (2 + 2 * nd) w d) (nth (3 + 2 * nd) w d)
    (map (fun i => nth (2 + i) w d) (seq 0 nd)) (map (fun i => nth (2 + nd + i) w d) (seq 0 nd))
    (map (fun i => nth (4 + 2 * nd + i) w d) (seq 0 nd)) (map (fun i => nth (4 + 3 * nd + i) w d) (seq 0 nd)).
(** scalar_born.py:926-938 *)
Definition born_ret (wfc wfp : T) (psi zeta : list T) (wfcsc wfpsc : T) (psisc zetasc : list T) (r rsc : T) : list T :=
  [wfc; wfp] ++ psi ++ zeta ++ [wfcsc; wfpsc] ++ psisc ++ zetasc ++ [r; rsc].

(** ** Acoustic *)

(** acoustic.py:406-426 *)
Definition acoustic_initial (nd : nat) (arg : string -> T) : list T :=
  [arg "pressure_0"]
  ++ if_ (Nat.eqb nd 3) [arg "vz_0"] ++ if_ (Nat.leb 2 nd) [arg "vy_0"] ++ [arg "vx_0"]
  ++ if_ (Nat.eqb nd 3) [arg "phi_z_0"] ++ if_ (Nat.leb 2 nd) [arg "phi_y_0"] ++ [arg "phi_x_0"]
  ++ if_ (Nat.eqb nd 3) [arg "psi_z_0"] ++ if_ (Nat.leb 2 nd) [arg "psi_y_0"] ++ [arg "psi_x_0"].
(** acoustic.py:966-969, 1185-1189 *)
Definition ac_fwd_args (models f w rest : list T) : list T := models ++ f ++ w ++ rest.
Definition ac_bwd_args (models gr w aux rest : list T) : list T := models ++ gr ++ w ++ aux ++ rest.
(** acoustic.py:914-943, 1147-1176, 1446-1474; model names of [prepare_models] (acoustic.py:37-88) *)
Definition ac_wf_names (nd : nat) : list string :=
  let ext a b c := if Nat.eqb nd 3 then [a; b; c] else if Nat.eqb nd 2 then [b; c] else if Nat.eqb nd 1 then [c] else [] in
  ["pressure_0"] ++ ext "vz_0" "vy_0" "vx_0" ++ ext "phi_z_0" "phi_y_0" "phi_x_0" ++ ext "psi_z_0" "psi_y_0" "psi_x_0".
Definition ac_model_names (nd : nat) : list string :=
  ["K"] ++ if Nat.eqb nd 3 then ["Bz"; "By"; "Bx"] else if Nat.eqb nd 2 then ["By"; "Bx"] else if Nat.eqb nd 1 then ["Bx"] else [].
(** acoustic.py:1418-1421, 1481-1482 *)
Definition ac_python_cb (d : T) (nd : nat) (w : list T) : dict :=
  dict_zip (ac_wf_names nd) ([nth 0 w d] ++ sl 1 (1 + nd) w ++ sl (1 + nd) (1 + 2 * nd) w ++ skipn (1 + 2 * nd) w).
(** acoustic.py:1224-1231: the swap of the last [nd] wavefields with the auxiliary ones; result: (wavefields, aux). *)
Definition ac_swap (nd : nat) (w aux : list T) : list T * list T :=
  (put w (length w - nd) aux, skipn (length w - nd) w).

(** ** Elastic *)

(** elastic.py:719-767 *)
Definition elastic_initial (nd : nat) (arg : string -> T) : list T :=
  if_ (Nat.leb 3 nd) (map arg ["vz_0"; "sigmazz_0"; "sigmayz_0"; "sigmaxz_0"; "m_vzz_0"; "m_vzy_0"; "m_vzx_0"; "m_vyz_0"; "m_vxz_0";
     "m_sigmazzz_0"; "m_sigmayzy_0"; "m_sigmaxzx_0"; "m_sigmayzz_0"; "m_sigmaxzz_0"])
  ++ if_ (Nat.leb 2 nd) (map arg ["vy_0"; "sigmayy_0"; "sigmaxy_0"; "m_vyy_0"; "m_vyx_0"; "m_vxy_0"; "m_sigmayyy_0"; "m_sigmaxyy_0"; "m_sigmaxyx_0"])
  ++ map arg ["vx_0"; "sigmaxx_0"; "m_vxx_0"; "m_sigmaxxx_0"].
(** elastic.py:1517-1520, 1834-1838 *)
Definition el_fwd_args (models f w rest : list T) : list T := models ++ f ++ w ++ rest.
Definition el_bwd_args (models gr w aux rest : list T) : list T := models ++ gr ++ w ++ aux ++ rest.
(** elastic.py:1440-1494 and the same at 1771-1825; the third assignment to [model_names] is made for 3-D also. *)
Definition el_wf_names (nd : nat) : list string :=
  if_ (Nat.leb 3 nd) ["vz_0"; "sigmazz_0"; "sigmayz_0"; "sigmaxz_0"; "m_vzz_0"; "m_vzy_0"; "m_vzx_0"; "m_vyz_0"; "m_vxz_0";
     "m_sigmazzz_0"; "m_sigmayzy_0"; "m_sigmaxzx_0"; "m_sigmayzz_0"; "m_sigmaxzz_0"]
  ++ if_ (Nat.leb 2 nd) ["vy_0"; "sigmayy_0"; "sigmaxy_0"; "m_vyy_0"; "m_vyx_0"; "m_vxy_0"; "m_sigmayyy_0"; "m_sigmaxyy_0"; "m_sigmaxyx_0"]
  ++ ["vx_0"; "sigmaxx_0"; "m_vxx_0"; "m_sigmaxxx_0"].
Definition el_model_names (nd : nat) : list string :=
  let n0 := [] in
  let n1 := if Nat.leb 3 nd then ["lamb"; "mu"; "mu_zy"; "mu_zx"; "mu_yx"; "buoyancy_z"; "buoyancy_y"; "buoyancy_x"] else n0 in
  let n2 := if Nat.leb 2 nd then ["lamb"; "mu"; "mu_yx"; "buoyancy_y"; "buoyancy_x"] else n1 in
  if Nat.eqb nd 1 then ["lamb"; "mu"; "buoyancy_x"] else n2.
(** elastic.py:1502 *)
Definition el_fwd_cb (nd : nat) (w : list T) : dict := dict_zip (el_wf_names nd) w.
(** elastic.py:1921-1923 *)
Definition el_bwd_cb (nd : nat) (w : list T) : dict := dict_zip (el_wf_names nd) (removelast w).
(** elastic.py:1882-1918: swaps of wavefields with auxiliary ones; result: (wavefields, aux). *)
Definition el_swap (nd : nat) (w aux : list T) : list T * list T :=
  let n := length aux in
  match nd with
  | 3 => let '(w1, a1) := (put w 9 (sl (n - 9) (n - 4) aux), put aux (n - 9) (sl 9 14 w)) in
         let '(w2, a2) := (put w1 20 (sl (n - 4) (n - 1) a1), put a1 (n - 4) (sl 20 23 w1)) in
         (put w2 26 (sl (n - 1) n a2), put a2 (n - 1) (sl 26 27 w2))
  | 2 => let '(w1, a1) := (put w 6 (sl (n - 4) (n - 1) aux), put aux (n - 4) (sl 6 9 w)) in
         (put w1 12 (sl (n - 1) n a1), put a1 (n - 1) (sl 12 13 w1))
  | _ => (put w 3 (sl (n - 1) n aux), put aux (n - 1) (sl 3 4 w))
  end.
(** elastic.py:1033-1079: outputs in the order expected by users; pressure receivers first. *)
Definition el_order (nd : nat) : list nat :=
  match nd with
  | 3 => [0; 14; 23; 1; 2; 3; 15; 16; 24; 4; 5; 6; 7; 8; 17; 18; 19; 25; 9; 10; 11; 12; 13; 20; 21; 22; 26]
  | 2 => [0; 9; 1; 2; 10; 3; 4; 5; 11; 6; 7; 8; 12]
  | _ => [0; 1; 2; 3]
  end.
Definition el_ret (d : T) (nd : nat) (w r : list T) : list T :=
  map (fun i => nth i w d) (el_order nd) ++ [nth nd r d] ++ firstn nd r.

(** [elastic_python] (elastic.py:2206-2402): the lists of variables; [e] is [torch.empty(0)]. *)
Record elpy := mkelpy { ep_v : list T; ep_s : list T; ep_sh : list (list T); ep_mv : list T; ep_mvsh : list (list T);
                        ep_ms : list T; ep_mssh : list (list T) }.
Definition elpy_of (e : T) (nd : nat) (w : list T) : elpy :=
  let g i := nth i w e in
  match nd with
  | 3 => mkelpy [g 0; g 14; g 23] [g 1; g 15; g 24] [[e; g 2; g 3]; [g 2; e; g 16]; [g 3; g 16; e]]
           [g 4; g 17; g 25] [[e; g 5; g 6]; [g 7; e; g 18]; [g 8; g 19; e]]
           [g 9; g 20; g 26] [[e; g 10; g 11]; [g 12; e; g 22]; [g 13; g 21; e]]
  | 2 => mkelpy [g 0; g 9] [g 1; g 10] [[e; g 2]; [g 2; e]] [g 3; g 11] [[e; g 4]; [g 5; e]] [g 6; g 12] [[e; g 8]; [g 7; e]]
  | _ => mkelpy [g 0] [g 1] [[]] [g 2] [[]] [g 3] [[]]
  end.
Definition v_names (nd : nat) := match nd with 3 => ["vz_0"; "vy_0"; "vx_0"] | 2 => ["vy_0"; "vx_0"] | _ => ["vx_0"] end.
Definition normal_s_names (nd : nat) := match nd with 3 => ["sigmazz_0"; "sigmayy_0"; "sigmaxx_0"] | 2 => ["sigmayy_0"; "sigmaxx_0"] | _ => ["sigmaxx_0"] end.
Definition shear_s_names (nd : nat) := match nd with 3 => [["sigmayz_0"; "sigmaxz_0"]; ["sigmaxy_0"]] | 2 => [["sigmaxy_0"]] | _ => [[]] end.
Definition v_mem_normal_names (nd : nat) := match nd with 3 => ["m_vzz_0"; "m_vyy_0"; "m_vxx_0"] | 2 => ["m_vyy_0"; "m_vxx_0"] | _ => ["m_vxx_0"] end.
Definition v_mem_shear_names (nd : nat) :=
  match nd with 3 => [["m_vzy_0"; "m_vzx_0"]; ["m_vyz_0"; "m_vyx_0"]; ["m_vxz_0"; "m_vxy_0"]] | 2 => [["m_vyx_0"; "m_vxy_0"]] | _ => [[]] end.
Definition s_mem_normal_names (nd : nat) :=
  match nd with 3 => ["m_sigmazzz_0"; "m_sigmayyy_0"; "m_sigmaxxx_0"] | 2 => ["m_sigmayyy_0"; "m_sigmaxxx_0"] | _ => ["m_sigmaxxx_0"] end.
Definition s_mem_shear_names (nd : nat) :=
  match nd with
  | 3 => [["m_sigmayzy_0"; "m_sigmaxzx_0"]; ["m_sigmayzz_0"; "m_sigmaxyx_0"]; ["m_sigmaxzz_0"; "m_sigmaxyy_0"]]
  | 2 => [["m_sigmaxyx_0"; "m_sigmaxyy_0"]] | _ => [[]]
  end.
(** elastic.py:2504-2520 *)
Definition elpy_cb (nd : nat) (s : elpy) : dict :=
  let upd_all names vals d := fold_left (fun d nv => update d (dict_zip (fst nv) (snd nv))) (combine names vals) d in
  let d := dict_zip (v_names nd) (ep_v s) in
  let d := update d (dict_zip (normal_s_names nd) (ep_s s)) in
  let d := upd_all (shear_s_names nd) (ep_sh s) d in
  let d := update d (dict_zip (v_mem_normal_names nd) (ep_mv s)) in
  let d := upd_all (v_mem_shear_names nd) (ep_mvsh s) d in
  let d := update d (dict_zip (s_mem_normal_names nd) (ep_ms s)) in
  upd_all (s_mem_shear_names nd) (ep_mssh s) d.
(** elastic.py:2645-2708 *)
Definition elpy_ret (e : T) (nd : nat) (s : elpy) : list T :=
  let c l i := nth i l e in
  let c2 l i j := nth j (nth i l []) e in
  match nd with
  | 3 => [c (ep_v s) 0; c (ep_s s) 0; c2 (ep_sh s) 0 1; c2 (ep_sh s) 0 2; c (ep_mv s) 0; c2 (ep_mvsh s) 0 1; c2 (ep_mvsh s) 0 2;
          c2 (ep_mvsh s) 1 0; c2 (ep_mvsh s) 2 0; c (ep_ms s) 0; c2 (ep_mssh s) 0 1; c2 (ep_mssh s) 0 2; c2 (ep_mssh s) 1 0;
          c2 (ep_mssh s) 2 0; c (ep_v s) 1; c (ep_s s) 1; c2 (ep_sh s) 1 2; c (ep_mv s) 1; c2 (ep_mvsh s) 1 2; c2 (ep_mvsh s) 2 1;
          c (ep_ms s) 1; c2 (ep_mssh s) 2 1; c2 (ep_mssh s) 1 2; c (ep_v s) 2; c (ep_s s) 2; c (ep_mv s) 2; c (ep_ms s) 2]
  | 2 => [c (ep_v s) 0; c (ep_s s) 0; c2 (ep_sh s) 0 1; c (ep_mv s) 0; c2 (ep_mvsh s) 0 1; c2 (ep_mvsh s) 1 0; c (ep_ms s) 0;
          c2 (ep_mssh s) 1 0; c2 (ep_mssh s) 0 1; c (ep_v s) 1; c (ep_s s) 1; c (ep_mv s) 1; c (ep_ms s) 1]
  | _ => [c (ep_v s) 0; c (ep_s s) 0; c (ep_mv s) 0; c (ep_ms s) 0]
  end.
(** elastic.py:2478-2496 *)
Definition elpy_model_names (nd : nat) : list string :=
  if Nat.leb 3 nd then ["lamb"; "mu"; "mu_zy"; "mu_zx"; "mu_yx"; "buoyancy_z"; "buoyancy_y"; "buoyancy_x"]
  else if Nat.leb 2 nd then ["lamb"; "mu"; "mu_yx"; "buoyancy_y"; "buoyancy_x"] else ["lamb"; "mu"; "buoyancy_x"].

(** ** Splitting of arguments and saved gradients *)

(** [x = l[-n:]; del l[-n:]] *)
Definition pop (n : nat) (l : list T) : list T * list T := (skipn (length l - n) l, firstn (length l - n) l).
(** acoustic.py:769-790, elastic.py:1237-1281: (models, source_amplitudes, sources_i, receivers_i, wavefields), and what is left. *)
Definition staggered_parse (n_models n_wavefields nd : nat) (args : list T) : list T * list T * list T * list T * list T * list T :=
  let '(w, a) := pop n_wavefields args in
  let '(r, a) := pop (nd + 1) a in
  let '(s, a) := pop (nd + 1) a in
  let '(f, a) := pop (nd + 1) a in
  let '(m, a) := pop n_models a in
  (m, f, s, r, w, a).
(** acoustic.py:1016-1018, elastic.py:1614-1617: gradients of the outputs, as (wavefields, receivers) *)
Definition staggered_grads (nd : nat) (args : list T) : list T * list T :=
  (firstn (length args - (nd + 1)) args, skipn (length args - (nd + 1)) args).
End Names.

(** ** Arguments of the autograd functions and the gradients that they return

    Arguments by name; a returned gradient [Some q] is the gradient with respect to [q], [None] is Python's [None]. *)
Definition models_of (p : prop) (nd : nat) : list string :=
  match p with Scalar => ["v"] | ScalarBorn => ["v"; "scatter"] | Acoustic => ac_model_names nd | Elastic => elpy_model_names nd end.
Definition comps (nd : nat) (p : prop) (pre : string) : list string :=
  match p with
  | Scalar | ScalarBorn => [pre]
  | Acoustic => (pre +++ "_p") :: per (pre +++ "_") "" nd
  | Elastic => per (pre +++ "_") "" nd ++ [pre +++ "_p"]
  end.
Definition wf_of (p : prop) (nd : nat) : list string :=
  match p with
  | Scalar => scalar_initial nd id | ScalarBorn => born_initial nd id | Acoustic => acoustic_initial nd id | Elastic => elastic_initial nd id
  end.
(** scalar.py:596-615, scalar_born.py:599-622, acoustic.py:736-753 and elastic.py:1181-1200 with the calls acoustic.py:605-628
    and elastic.py:1000-1022 *)
Definition settings : list string :=
  ["grid_spacing"; "dt"; "nt"; "step_ratio"; "accuracy"; "pml_width"; "n_shots"; "forward_callback"; "backward_callback";
   "callback_frequency"; "storage_mode_str"; "storage_path"; "storage_compression"].
Definition apply_args (p : prop) (nd : nat) : list string :=
  match p with
  | Scalar => ["v"; "source_amplitudes"; "pml_profiles"; "sources_i"; "receivers_i"] ++ settings ++ wf_of p nd
  | ScalarBorn => ["v"; "scatter"; "source_amplitudes"; "source_amplitudessc"; "pml_profiles"; "sources_i"; "unused_tensor"; "receivers_i";
                   "receiverssc_i"] ++ settings ++ wf_of p nd
  | _ => ["pml_profiles"] ++ settings ++ models_of p nd ++ comps nd p "source_amplitudes" ++ comps nd p "sources_i"
         ++ comps nd p "receivers_i" ++ wf_of p nd
  end.
(** scalar.py:994-1014 with 1334-1341; scalar_born.py:1389-1408; acoustic.py:1251-1258; elastic.py:1940-1949 *)
Definition nones (n : nat) : list (option string) := repeat None n.
Definition returned (p : prop) (nd : nat) : list (option string) :=
  match p with
  | Scalar => [Some "v"; Some "source_amplitudes"] ++ nones 16
              ++ map Some (["wavefield_0"; "wavefield_m1"] ++ per "psi" "_m1" nd ++ per "zeta" "_m1" nd)
  | ScalarBorn => [Some "v"; Some "scatter"; Some "source_amplitudes"; Some "source_amplitudessc"] ++ nones 18
              ++ map Some (["wavefield_0"; "wavefield_m1"] ++ per "psi" "_m1" nd ++ per "zeta" "_m1" nd
                           ++ ["wavefield_sc_0"; "wavefield_sc_m1"] ++ per "psi" "_sc_m1" nd ++ per "zeta" "_sc_m1" nd)
  | Acoustic => nones 14 ++ map Some (models_of p nd) ++ map Some (comps nd p "source_amplitudes") ++ nones (nd + 1) ++ nones (nd + 1)
              ++ map Some (ac_wf_names nd)
  | Elastic => nones 14 ++ map Some (models_of p nd) ++ map Some (comps nd p "source_amplitudes") ++ nones (2 * (nd + 1))
              ++ map Some (el_wf_names nd)
  end.
(** scalar_born.py:1408-1423, when only the scattered part needs gradients *)
Definition returned_sc (nd : nat) : list (option string) :=
  [None; Some "scatter"; None; Some "source_amplitudessc"] ++ nones (20 + 2 * nd)
  ++ map Some (["wavefield_sc_0"; "wavefield_sc_m1"] ++ per "psi" "_sc_m1" nd ++ per "zeta" "_sc_m1" nd).
(** scalar.py:1019-1039 with the call at 973-993 *)
Definition apply_backward_args (nd : nat) : list string :=
  ["grad_r"; "v"; "pml_profiles"; "sources_i"; "receivers_i"; "storage_manager"; "source_amplitudes"; "grid_spacing"; "dt"; "nt"; "n_shots";
   "step_ratio"; "accuracy"; "pml_width"; "source_amplitudes_requires_grad"; "backward_callback"; "callback_frequency"]
  ++ map (fun q => "grad_" +++ q) (wf_of Scalar nd) ++ wf_of Scalar nd.
(** scalar.py:1825-1878 *)
Definition returned_double (nd : nat) : list (option string) :=
  [Some "grad_r"; Some "v"; None; None; None; None; Some "source_amplitudes"; None; None; None; None; None; None; None; None; None; None]
  ++ map Some (["grad_wavefield_0"; "grad_wavefield_m1"] ++ per "grad_psi" "_m1" nd ++ per "grad_zeta" "_m1" nd)
  ++ map Some (["wavefield_0"; "wavefield_m1"] ++ per "psi" "_m1" nd ++ per "zeta" "_m1" nd).
Arguments dict : clear implicits.
Arguments elpy : clear implicits.
