(** The attributes of transformation/_RobustScaler.py, _QuantileTransformer.py and _PowerTransformer.py.
    The objects themselves are [wrapper] of M_Transform; here: their parameters, and which assignments
    are validated ([wrap_setattr]). *)
From Coq Require Import List ZArith Bool String.
From Verif Require Import Base Num Mat M_Transform.

Section Robust.
Context {T : Type} `{Num T} {I : Type}.
(** _RobustScaler.py 28-35: __init__ *)
Record robust_params : Type := Robust { rs_centering : bool; rs_scaling : bool; rs_range : T * T }.
Definition robust_default : robust_params := Robust true true (nofZ 25, nofZ 75).
Inductive robust_key : Type := RSCentering (v : bool) | RSScaling (v : bool) | RSRange (lo hi : T).
Definition robust_put (k : robust_key) (p : robust_params) : robust_params :=
  match k with
  | RSCentering v => Robust v (rs_scaling p) (rs_range p)
  | RSScaling v => Robust (rs_centering p) v (rs_range p)
  | RSRange lo hi => Robust (rs_centering p) (rs_scaling p) (lo, hi)
  end.
(** 49-52: validate_quantile_range; the other attributes have no validator *)
Definition robust_valid (k : robust_key) : option (robust_params -> bool) :=
  match k with
  | RSRange _ _ => Some (fun p => nltb n0 (fst (rs_range p)) && nltb (fst (rs_range p)) (snd (rs_range p)) && nltb (snd (rs_range p)) (nofZ 100))
  | _ => None
  end.
(** 37-47: __setattr__ *)
Definition robust_setattr (k : robust_key) (s : @wrap_st robust_params I) := wrap_setattr (robust_valid k) (robust_put k (w_params s)) s.
End Robust.
Arguments robust_params : clear implicits.
Arguments robust_key : clear implicits.

Section Quantile.
Context {I : Type}.
(** _QuantileTransformer.py 28-37: __init__ *)
Record quantile_params : Type := Quantile { qt_n : Z; qt_dist : string; qt_zeroes : bool; qt_subsample : Z; qt_state : option Z }.
Definition quantile_default : quantile_params := Quantile 1000 "uniform"%string false 100000 None.
Inductive quantile_key : Type := QTN (v : Z) | QTDist (v : string) | QTZeroes (v : bool) | QTSubsample (v : Z) | QTState (v : option Z).
Definition quantile_put (k : quantile_key) (p : quantile_params) : quantile_params :=
  match k with
  | QTN v => Quantile v (qt_dist p) (qt_zeroes p) (qt_subsample p) (qt_state p)
  | QTDist v => Quantile (qt_n p) v (qt_zeroes p) (qt_subsample p) (qt_state p)
  | QTZeroes v => Quantile (qt_n p) (qt_dist p) v (qt_subsample p) (qt_state p)
  | QTSubsample v => Quantile (qt_n p) (qt_dist p) (qt_zeroes p) v (qt_state p)
  | QTState v => Quantile (qt_n p) (qt_dist p) (qt_zeroes p) (qt_subsample p) v
  end.
(** 51-54: validate_output_distribution *)
Definition quantile_valid (k : quantile_key) : option (quantile_params -> bool) :=
  match k with
  | QTDist _ => Some (fun p => (qt_dist p =? "uniform")%string || (qt_dist p =? "normal")%string)
  | _ => None
  end.
(** 39-49: __setattr__ *)
Definition quantile_setattr (k : quantile_key) (s : @wrap_st quantile_params I) := wrap_setattr (quantile_valid k) (quantile_put k (w_params s)) s.
End Quantile.

Section Power.
Context {I : Type}.
(** _PowerTransformer.py 28-34: __init__ *)
Record power_params : Type := Power { pw_method : string; pw_standardise : bool }.
Definition power_default : power_params := Power "yeo-johnson"%string true.
Inductive power_key : Type := PWMethod (v : string) | PWStandardise (v : bool).
Definition power_put (k : power_key) (p : power_params) : power_params :=
  match k with PWMethod v => Power v (pw_standardise p) | PWStandardise v => Power (pw_method p) v end.
(** 48-51: validate_method *)
Definition power_valid (k : power_key) : option (power_params -> bool) :=
  match k with PWMethod _ => Some (fun p => (pw_method p =? "yeo-johnson")%string || (pw_method p =? "box-cox")%string) | _ => None end.
(** 36-46: __setattr__ *)
Definition power_setattr (k : power_key) (s : @wrap_st power_params I) := wrap_setattr (power_valid k) (power_put k (w_params s)) s.
End Power.
