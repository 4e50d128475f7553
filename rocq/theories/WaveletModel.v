(** * Model of wavelets.py. *)
From Coq Require Import List ZArith Reals.
From Verif Require Import Grid.
Import ListNotations.
Local Open Scope R_scope.

(** One sample (wavelets.py:34-37). *)
Definition ricker_at (freq t : R) : R :=
  (1 - 2 * PI ^ 2 * freq ^ 2 * t ^ 2) * exp (- (PI ^ 2) * freq ^ 2 * t ^ 2).

(** [ricker] (wavelets.py:9-39); [None]: an exception.  [torch.arange] of a negative length raises.
    [dtype] only concerns rounding, which is not modelled. *)
Definition ricker (freq : R) (length : Z) (dt peak_time : R) : option (list R) :=
  if Req_EM_T dt 0 then None
  else if (length <? 0)%Z then None
  else Some (map (fun k => ricker_at freq (IZR k * dt - peak_time)) (zrange 0 length)).
