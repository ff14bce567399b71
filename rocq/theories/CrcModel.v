(** * Model of frame_check_sequence.h and the CRC policies *)
From Coq Require Import List Arith Bool ZArith.
From Verif Require Import Util BinaryModel.
Import ListNotations.
Local Open Scope Z_scope.

(** ** frame_check_sequence.h: 97-190.  The policy is a value type with initial, add, final. *)
Record policy : Type := { initial : Z; padd : Z -> Z -> Z; pfinal : Z -> Z }.
(** the calls a client makes; [Add l] is add(begin, end) over the bytes l
    (frame_check_sequence.h: 139-150), [Add1] is add(uint8_t) (157-160) and also
    what the insert iterator's assignment does (82-86) *)
Inductive call : Type := Add (l : list Z) | Add1 (b : Z) | Reset.
(** frame_check_sequence.h: 139-160, 129-132 *)
Definition do_call (p : policy) (frame_check : Z) (c : call) : Z :=
  match c with
  | Add l => fold_left (padd p) l frame_check
  | Add1 b => padd p frame_check b
  | Reset => initial p
  end.
(** frame_check_sequence.h: 107-111 (constructor calls reset), then calls, then value() 166-169 *)
Definition value_after (p : policy) (calls : list call) : Z := pfinal p (fold_left (do_call p) calls (initial p)).

(** ** private/crc_implementation.h *)
Record crc_params : Type := { Accumulator_Bits : Z; Polynomial : Z; Initial : Z; Xor_Out : Z; Reflect : bool }.

Section Crc.
  Variable q : crc_params.
  Let w := Accumulator_Bits q.
  (** crc_implementation.h: 55-66 *)
  Definition crc_partial_table_entry (Entry : Z) : Z :=
    if Reflect q then
      let Do_Poly := negb ((Entry &&& 1) =? 0) in
      tr w (if Do_Poly then (Entry >> 1) ^^^ reverse_bits w (Polynomial q) else Entry >> 1)
    else
      let Do_Poly := negb ((Entry &&& (1 << (w - 1))) =? 0) in
      tr w (if Do_Poly then (Entry << 1) ^^^ Polynomial q else Entry << 1).
  (** crc_implementation.h: 80-146: Chunk_Bits nested partial entries *)
  Definition crc_table_entry (Chunk_Bits : nat) (Index : Z) : Z :=
    let Shift_Bits := w - Z.of_nat Chunk_Bits in
    let Entry := if Reflect q then tr w Index else tr w (tr w Index << Shift_Bits) in
    Nat.iter Chunk_Bits crc_partial_table_entry Entry.
  (** crc_implementation.h: 240-610: the tables hold the entries of index 0, 1, ... in order *)
  Definition table (Chunk_Bits : nat) (index : Z) : Z := crc_table_entry Chunk_Bits index.
  (** crc_implementation.h: 165-229: the four variants *)
  Definition crc_update_chunk (Chunk_Bits : nat) (crc value : Z) : Z :=
    let c := Z.of_nat Chunk_Bits in
    let Chunk_Mask := 2 ^ c - 1 in
    let value := value &&& Chunk_Mask in
    if Reflect q then
      let index := tr 8 ((crc &&& Chunk_Mask) ^^^ value) in
      if c <? w then (crc >> c) ^^^ table Chunk_Bits index else table Chunk_Bits index
    else
      let index := tr 8 ((crc >> (w - c)) ^^^ value) in
      if c <? w then tr w (crc << c) ^^^ table Chunk_Bits index else table Chunk_Bits index.
  (** crc_implementation.h: 256-275, 314-327, 604-608 *)
  Definition crc_add (Table_Size : Z) (crc value : Z) : Z :=
    if Table_Size =? 4 then
      let u := crc_update_chunk 2 in
      if Reflect q then u (u (u (u crc value) (value >> (2 * 1))) (value >> (2 * 2))) (value >> (2 * 3))
      else u (u (u (u crc (value >> (2 * 3))) (value >> (2 * 2))) (value >> (2 * 1))) value
    else if Table_Size =? 16 then
      let u := crc_update_chunk 4 in
      if Reflect q then u (u crc value) (value >> 4) else u (u crc (value >> 4)) value
    else crc_update_chunk 8 crc value.
  (** crc_implementation.h: 625-703 *)
  Definition crc_policy (Table_Size : Z) : policy :=
    {| initial := if Reflect q then reverse_bits w (Initial q) else Initial q;
       padd := crc_add Table_Size;
       pfinal := fun crc => crc ^^^ Xor_Out q |}.
End Crc.

(** private/crc_parameters.h: 72-125, with the crc*.h header that names them
    (each crcX.h defines crcX_t<Table_Size> as crc_type over crcX_parameters) *)
Definition mk (w poly init xo : Z) (r : bool) : crc_params := {| Accumulator_Bits := w; Polynomial := poly; Initial := init; Xor_Out := xo; Reflect := r |}.
Definition crc8_ccitt_parameters := mk 8 0x07 0x00 0x00 false.
Definition crc8_rohc_parameters := mk 8 0x07 0xFF 0x00 true.
Definition crc8_cdma2000_parameters := mk 8 0x9B 0xFF 0x00 false.
Definition crc8_darc_parameters := mk 8 0x39 0x00 0x00 true.
Definition crc8_dvbs2_parameters := mk 8 0xD5 0x00 0x00 false.
Definition crc8_ebu_parameters := mk 8 0x1D 0xFF 0x00 true.
Definition crc8_icode_parameters := mk 8 0x1D 0xFD 0x00 false.
Definition crc8_itu_parameters := mk 8 0x07 0x00 0x55 false.
Definition crc8_maxim_parameters := mk 8 0x31 0x00 0x00 true.
Definition crc8_wcdma_parameters := mk 8 0x9B 0x00 0x00 true.
Definition crc8_j1850_parameters := mk 8 0x1D 0xFF 0xFF false.
Definition crc8_j1850_zero_parameters := mk 8 0x1D 0x00 0x00 false.
Definition crc16_parameters := mk 16 0x8005 0x0000 0x0000 true.
Definition crc16_ccitt_parameters := mk 16 0x1021 0xFFFF 0x0000 false.
Definition crc16_aug_ccitt_parameters := mk 16 0x1021 0x1D0F 0x0000 false.
Definition crc16_buypass_parameters := mk 16 0x8005 0x0000 0x0000 false.
Definition crc16_genibus_parameters := mk 16 0x1021 0xFFFF 0xFFFF false.
Definition crc16_profibus_parameters := mk 16 0x1DCF 0xFFFF 0xFFFF false.
Definition crc16_kermit_parameters := mk 16 0x1021 0x0000 0x0000 true.
Definition crc16_modbus_parameters := mk 16 0x8005 0xFFFF 0x0000 true.
Definition crc16_usb_parameters := mk 16 0x8005 0xFFFF 0xFFFF true.
Definition crc16_x25_parameters := mk 16 0x1021 0xFFFF 0xFFFF true.
Definition crc16_xmodem_parameters := mk 16 0x1021 0x0000 0x0000 false.
Definition crc16_cdma2000_parameters := mk 16 0xC867 0xFFFF 0x0000 false.
Definition crc16_dds110_parameters := mk 16 0x8005 0x800D 0x0000 false.
Definition crc16_dect_r_parameters := mk 16 0x0589 0x0000 0x0001 false.
Definition crc16_dect_x_parameters := mk 16 0x0589 0x0000 0x0000 false.
Definition crc16_dnp_parameters := mk 16 0x3D65 0x0000 0xFFFF true.
Definition crc16_en13757_parameters := mk 16 0x3D65 0x0000 0xFFFF false.
Definition crc16_maxim_parameters := mk 16 0x8005 0x0000 0xFFFF true.
Definition crc16_mcrf4xx_parameters := mk 16 0x1021 0xFFFF 0x0000 true.
Definition crc16_riello_parameters := mk 16 0x1021 0xB2AA 0x0000 true.
Definition crc16_t10dif_parameters := mk 16 0x8BB7 0x0000 0x0000 false.
Definition crc16_teledisk_parameters := mk 16 0xA097 0x0000 0x0000 false.
Definition crc16_tms37157_parameters := mk 16 0x1021 0x89EC 0x0000 true.
Definition crc16_a_parameters := mk 16 0x1021 0xC6C6 0x0000 true.
Definition crc16_arc_parameters := mk 16 0x8005 0x0000 0x0000 true.
Definition crc16_m17_parameters := mk 16 0x5935 0xFFFF 0x0000 false.
Definition crc32_parameters := mk 32 0x04C11DB7 0xFFFFFFFF 0xFFFFFFFF true.
Definition crc32_c_parameters := mk 32 0x1EDC6F41 0xFFFFFFFF 0xFFFFFFFF true.
Definition crc32_bzip2_parameters := mk 32 0x04C11DB7 0xFFFFFFFF 0xFFFFFFFF false.
Definition crc32_mpeg2_parameters := mk 32 0x04C11DB7 0xFFFFFFFF 0x00000000 false.
Definition crc32_posix_parameters := mk 32 0x04C11DB7 0x00000000 0xFFFFFFFF false.
Definition crc32_d_parameters := mk 32 0xA833982B 0xFFFFFFFF 0xFFFFFFFF true.
Definition crc32_q_parameters := mk 32 0x814141AB 0x00000000 0x00000000 false.
Definition crc32_jamcrc_parameters := mk 32 0x04C11DB7 0xFFFFFFFF 0x00000000 true.
Definition crc32_xfer_parameters := mk 32 0x000000AF 0x00000000 0x00000000 false.
Definition crc64_ecma_parameters := mk 64 0x42F0E1EBA9EA3693 0x0000000000000000 0x0000000000000000 false.
(** crc_parameters.h: 72-125 *)
Definition crc_parameters : list crc_params :=
  [crc8_ccitt_parameters; crc8_rohc_parameters; crc8_cdma2000_parameters; crc8_darc_parameters; crc8_dvbs2_parameters; crc8_ebu_parameters; crc8_icode_parameters; crc8_itu_parameters; crc8_maxim_parameters; crc8_wcdma_parameters; crc8_j1850_parameters; crc8_j1850_zero_parameters; crc16_parameters; crc16_ccitt_parameters; crc16_aug_ccitt_parameters; crc16_buypass_parameters; crc16_genibus_parameters; crc16_profibus_parameters; crc16_kermit_parameters; crc16_modbus_parameters; crc16_usb_parameters; crc16_x25_parameters; crc16_xmodem_parameters; crc16_cdma2000_parameters; crc16_dds110_parameters; crc16_dect_r_parameters; crc16_dect_x_parameters; crc16_dnp_parameters; crc16_en13757_parameters; crc16_maxim_parameters; crc16_mcrf4xx_parameters; crc16_riello_parameters; crc16_t10dif_parameters; crc16_teledisk_parameters; crc16_tms37157_parameters; crc16_a_parameters; crc16_arc_parameters; crc16_m17_parameters; crc32_parameters; crc32_c_parameters; crc32_bzip2_parameters; crc32_mpeg2_parameters; crc32_posix_parameters; crc32_d_parameters; crc32_q_parameters; crc32_jamcrc_parameters; crc32_xfer_parameters; crc64_ecma_parameters].

(** ** crc1.h: 44-71 *)
Definition crc1_policy : policy := {| initial := 0; padd := fun p value => tr 8 (p ^^^ parity 8 value); pfinal := fun p => p |}.
