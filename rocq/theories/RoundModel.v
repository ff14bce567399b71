(** scaled_rounding.h: T has [w] bits and is signed or not; SCALING is [s], 0 < s, and fits in scale_t (int32_t for a signed T, uint32_t for an
    unsigned one), line 49-51. None: signed arithmetic overflows. *)
From Coq Require Import ZArith List Bool.
From Verif Require Import MathModel.
Open Scope Z_scope.
Section Rounding.
Variables (sg : bool) (w s : Z).
(** the type in which a T and a scale_t are combined: the wider of the two *)
Definition cw : Z := Z.max w 32.
Definition arith (x : Z) : option Z :=
  if sg then (if (- 2 ^ (cw - 1) <=? x) && (x <? 2 ^ (cw - 1)) then Some x else None) else Some (x mod 2 ^ cw).
(** T( ) *)
Definition to_T (x : Z) : Z := if sg then to_s w x else to_u w x.
(** T(x / scale_t(SCALING)); / truncates *)
Definition divide (x : option Z) : option Z := match x with Some x => Some (to_T (Z.quot x s)) | None => None end.
(** T(x * scale_t(SCALING)) *)
Definition scaled (x : option Z) : option Z := match x with Some x => match arith (x * s) with Some y => Some (to_T y) | None => None end | None => None end.
(** 66-80, 87-93 *)
Definition round_ceiling_unscaled (value : Z) : option Z := if 0 <=? value then divide (arith (value + s)) else divide (Some value).
Definition round_ceiling_scaled (value : Z) : option Z := scaled (round_ceiling_unscaled value).
(** 100-114, 121-127 *)
Definition round_floor_unscaled (value : Z) : option Z := if 0 <=? value then divide (Some value) else divide (arith (value - s)).
Definition round_floor_scaled (value : Z) : option Z := scaled (round_floor_unscaled value).
(** 135-150, 158-164 *)
Definition round_half_up_unscaled (value : Z) : option Z := if 0 <=? value then divide (arith (value + s / 2)) else divide (arith (value - s / 2)).
Definition round_half_up_scaled (value : Z) : option Z := scaled (round_half_up_unscaled value).
(** 172-187, 195-201 *)
Definition round_half_down_unscaled (value : Z) : option Z := if 0 <=? value then divide (arith (value + (s / 2 - 1))) else divide (arith (value - (s / 2 - 1))).
Definition round_half_down_scaled (value : Z) : option Z := scaled (round_half_down_unscaled value).
(** 208-215, 222-228 *)
Definition round_zero_unscaled (value : Z) : option Z := divide (Some value).
Definition round_zero_scaled (value : Z) : option Z := scaled (round_zero_unscaled value).
(** 235-249, 256-262 *)
Definition round_infinity_unscaled (value : Z) : option Z := if 0 <=? value then divide (arith (value + s)) else divide (arith (value - s)).
Definition round_infinity_scaled (value : Z) : option Z := scaled (round_infinity_unscaled value).
(** etl::absolute(value), absolute.h: 43-62 *)
Definition absolute_T (value : Z) : option Z := if sg then absolute w value else Some value.
(** 270-293: & 1U takes the lowest bit of the quotient *)
Definition round_half_even_unscaled (value : Z) : option Z :=
  match absolute_T value with
  | None => None
  | Some a => if Z.rem a s =? s / 2
              then if Z.odd (Z.quot value s) then round_half_up_unscaled value else round_half_down_unscaled value
              else round_half_up_unscaled value
  end.
(** 301-307 *)
Definition round_half_even_scaled (value : Z) : option Z := scaled (round_half_even_unscaled value).
(** 315-338 *)
Definition round_half_odd_unscaled (value : Z) : option Z :=
  match absolute_T value with
  | None => None
  | Some a => if Z.rem a s =? s / 2
              then if Z.odd (Z.quot value s) then round_half_down_unscaled value else round_half_up_unscaled value
              else round_half_up_unscaled value
  end.
(** 346-352 *)
Definition round_half_odd_scaled (value : Z) : option Z := scaled (round_half_odd_unscaled value).
End Rounding.
