(** unaligned_type.h and endianness.h. Memory is a list of bytes 0..255 by ascending address. An integral type T has w bits (8, 16, 32 or 64) and is signed or not (bool and the character types are not treated apart); its objects lie in memory in the byte order of the
    machine, [native]. reverse_bytes is the model of binary.h in BinaryModel. A floating point object is the list of its bytes. *)
From Coq Require Import List Bool ZArith.
From Verif Require Import BinaryModel.
Import ListNotations.
Local Open Scope Z_scope.

(** endianness.h: 99-106 *)
Inductive endian := little | big.
Definition same (a b : endian) : bool := match a, b with little, little | big, big => true | _, _ => false end.

(** the bytes of an integer, lowest first, and back *)
Fixpoint bytes_le (n : nat) (u : Z) : list Z := match n with O => [] | S n => u mod 256 :: bytes_le n (u / 256) end.
Fixpoint of_le (l : list Z) : Z := match l with [] => 0 | b :: l => b + 256 * of_le l end.
Definition size (w : Z) : nat := Z.to_nat (w / 8).
(** memcpy(store, &value, Size_) and memcpy(&value, store, Size_) *)
Definition memcpy_from (native : endian) (w v : Z) : list Z := if same native little then bytes_le (size w) v else rev (bytes_le (size w) v).
Definition memcpy_to (native : endian) (sgn : bool) (w : Z) (m : list Z) : Z := let u := of_le (if same native little then m else rev m) in if sgn then sg w u else u.
(** binary.h: 726-801, the overloads for signed and unsigned types *)
Definition reverse_bytes_T (sgn : bool) (w v : Z) : Z := if sgn then reverse_bytes_signed w v else reverse_bytes w v.

(** unaligned_type.h: 344-356. ETL_HAS_CONSTEXPR_ENDIANESS is defined nowhere (endianness.h: 88 defines ..._ENDIANNESS), so the second branch of the #if is the one that is compiled *)
Definition copy_value_to_store (native E : endian) (w v : Z) : list Z := let store := memcpy_from native w v in if negb (same E native) then rev store else store.
(** unaligned_type.h: 360-372 *)
Definition copy_store_to_value (native E : endian) (sgn : bool) (w : Z) (store : list Z) : Z :=
  let value := memcpy_to native sgn w store in if negb (same E native) then reverse_bytes_T sgn w value else value.
(** unaligned_type.h: 375-383, 432-440 *)
Definition copy_store_to_store (E endian_src : endian) (src : list Z) : list Z := if negb (same E endian_src) then rev src else src.
(** unaligned_type.h: 401-413, 417-429: floating point *)
Definition copy_float_to_store (native E : endian) (value : list Z) : list Z := if negb (same E native) then rev value else value.
Definition copy_store_to_float (native E : endian) (store : list Z) : list Z := if negb (same E native) then rev store else store.
(** unaligned_type.h: 489-492; 497-502, None: unaligned_type_buffer_size *)
Definition from_address (w : Z) (memory : list Z) : list Z := firstn (size w) memory.
Definition from_buffer (w : Z) (memory : list Z) (buffer_size : nat) : option (list Z) := if Nat.leb (size w) buffer_size then Some (firstn (size w) memory) else None.
(** unaligned_type.h: 654-665, 715-728 (unaligned_type_ext): the storage is taken over and turned in place *)
Definition move_ext (E endian_src : endian) (storage : list Z) : list Z := if negb (same E endian_src) then rev storage else storage.
(** endianness.h: 160-174, 176-190 *)
Definition ntoh (native : endian) (sgn : bool) (w v : Z) : Z := if same native little then reverse_bytes_T sgn w v else v.
Definition hton (native : endian) (sgn : bool) (w v : Z) : Z := if same native little then reverse_bytes_T sgn w v else v.
