(** * Model of base64.h, base64_encoder.h, base64_decoder.h.

    Bytes and characters are numbers 0..255 (char / uint8_t conversions keep
    the bit pattern).  [exc]: ETL_ASSERT throws (exceptions configuration) or
    does nothing (no ETL_THROW_EXCEPTIONS, no log, no debug).  [cb]: a callback was
    supplied.  [max]: Buffer_Size.  The output buffer is its filled prefix; the
    spans given to the callback are collected in [sent]. *)
From Coq Require Import List Arith Lia Bool String Ascii ZArith.
From Verif Require Import Util Slots Cmd.
Import ListNotations.
Local Open Scope Z_scope.

Definition chars (s : string) : list Z := map (fun c => Z.of_N (N_of_ascii c)) (list_ascii_of_string s).
(** base64.h: 187-212 *)
Definition character_set_1 : list Z := chars "ABCDEFGHIJKLMNOPQRSTUVWXYZabcdefghijklmnopqrstuvwxyz0123456789+/".
Definition character_set_2 : list Z := chars "ABCDEFGHIJKLMNOPQRSTUVWXYZabcdefghijklmnopqrstuvwxyz0123456789-_".
Definition character_set_3 : list Z := chars "ABCDEFGHIJKLMNOPQRSTUVWXYZabcdefghijklmnopqrstuvwxyz0123456789+,".
Definition PAD : Z := 61.    (* '=' *)

(** ** base64_encoder.h *)
(** base64_encoder.h: 491-500 *)
Record enc := mkE { ibuf : list Z; obuf : list Z; overflowed : bool; sent : list (list Z) }.
(** base64_encoder.h: 296-311 *)
Definition make_enc : enc := mkE [] [] false [].

Section Encoder.
  Variable table : list Z.
  Variable use_padding exc cb : bool.
  Variable max : nat.

  (** encoder_table[i]; out of the 64 characters is undefined behaviour *)
  Definition look (i : Z) : Cmd enc Z :=
    fun s => match nth_error table (Z.to_nat i) with Some c => Ok s c | None => Bad end.
  (** base64_encoder.h: 423-434 *)
  Definition push_to_output_buffer (c : Z) : Cmd enc unit :=
    modify (fun s => if (List.length (obuf s) <? max)%nat then mkE (ibuf s) (obuf s ++ [c]) (overflowed s) (sent s)
                     else mkE (ibuf s) (obuf s) true (sent s)).
  (** base64_encoder.h: 466-471; input_buffer has 3 elements *)
  Definition push_to_input_buffer (v : Z) : Cmd enc unit :=
    fun s => if (List.length (ibuf s) <? 3)%nat then Ok (mkE (ibuf s ++ [v]) (obuf s) (overflowed s) (sent s)) tt else Bad.
  (** base64_encoder.h: 457-461, 485-489 *)
  Definition reset_output_buffer : Cmd enc unit := modify (fun s => mkE (ibuf s) [] (overflowed s) (sent s)).
  Definition reset_input_buffer : Cmd enc unit := modify (fun s => mkE [] (obuf s) (overflowed s) (sent s)).
  Definition call_back (span : list Z) : Cmd enc unit := modify (fun s => mkE (ibuf s) (obuf s) (overflowed s) (sent s ++ [span])).

  Definition push_sextet (octets shift : Z) : Cmd enc unit :=
    let! c := look (Z.land (Z.shiftr octets shift) 63) in push_to_output_buffer c.

  (** base64_encoder.h: 316-379 *)
  Definition encode_block : Cmd enc bool :=
    let! s := state in
    (match ibuf s with
     | [a] =>
         let octets := Z.shiftl a 4 in
         push_sextet octets 6 ;; push_sextet octets 0 ;;
         (if use_padding then push_to_output_buffer PAD ;; push_to_output_buffer PAD else ret tt)
     | [a; b] =>
         let octets := Z.shiftl (Z.lor (Z.shiftl a 8) b) 2 in
         push_sextet octets 12 ;; push_sextet octets 6 ;; push_sextet octets 0 ;;
         (if use_padding then push_to_output_buffer PAD else ret tt)
     | [a; b; c] =>
         let octets := Z.lor (Z.lor (Z.shiftl a 16) (Z.shiftl b 8)) c in
         push_sextet octets 18 ;; push_sextet octets 12 ;; push_sextet octets 6 ;; push_sextet octets 0
     | _ => ret tt
     end) ;;
    let! s := state in
    (if exc then assert_ (negb (overflowed s)) "base64_overflow" else ret tt) ;;
    ret (negb (overflowed s)).

  (** base64_encoder.h: 72-96 *)
  Definition encode1 (v : Z) : Cmd enc bool :=
    push_to_input_buffer v ;;
    let! s := state in
    (if Nat.eqb (List.length (ibuf s)) 3 then
       encode_block ;;
       reset_input_buffer ;;
       (if cb then
          let! s := state in
          if Nat.eqb (List.length (obuf s)) max then call_back (obuf s) ;; reset_output_buffer else ret tt
        else ret tt)
     else ret tt) ;;
    let! s := state in ret (negb (overflowed s)).

  (** base64_encoder.h: 101-136 *)
  Fixpoint encode (l : list Z) : Cmd enc bool :=
    match l with
    | [] => ret true
    | v :: r => let! b := encode1 v in if b then encode r else ret false
    end.

  (** base64_encoder.h: 161-187 *)
  Definition flush : Cmd enc bool :=
    let! success := encode_block in
    reset_input_buffer ;;
    (if success then
       if cb then
         let! s := state in
         (if Nat.eqb (List.length (obuf s)) 0 then ret tt else call_back (obuf s)) ;;
         call_back [] ;;
         reset_output_buffer
       else ret tt
     else ret tt) ;;
    ret success.

  (** base64_encoder.h: 141-156 *)
  Definition encode_final (l : list Z) : Cmd enc bool :=
    let! b := encode l in if b then flush else ret false.

  (** base64_encoder.h: 192-197: the overflow flag is not reset *)
  Definition restart : Cmd enc unit := reset_input_buffer ;; reset_output_buffer.
End Encoder.

(** base64_encoder.h: 384-416 (no wrap of size_t: lengths < 2^62) *)
Definition round4 (n : nat) : nat := if Nat.eqb (n mod 4) 0 then n else n + (4 - n mod 4).
Definition encoded_size (n : nat) (use_padding : bool) : nat :=
  if Nat.eqb n 0 then 0%nat
  else if use_padding then round4 (round4 (n * 4 / 3)) else round4 (n + ((n - 1) / 3 + 1)).

(** ** base64_decoder.h *)
(** base64_decoder.h: 520-531 *)
Record dec := mkD { d_ibuf : list Z; d_obuf : list Z; d_overflow : bool; d_invalid : bool; d_padding : bool; d_sent : list (list Z) }.
(** base64_decoder.h: 313-330 *)
Definition make_dec : dec := mkD [] [] false false false [].

Section Decoder.
  Variable table : list Z.
  Variable exc cb : bool.
  Variable max : nat.

  (** etl::find over the table, base64_decoder.h: 352-358 *)
  Fixpoint find_index (l : list Z) (c : Z) (i : Z) : option Z :=
    match l with [] => None | x :: r => if Z.eqb x c then Some i else find_index r c (i + 1) end.
  (** base64_decoder.h: 348-364 *)
  Definition get_index_from_sextet (c : Z) : Cmd dec Z :=
    match find_index table c 0 with
    | Some i => ret i
    | None => modify (fun s => mkD (d_ibuf s) (d_obuf s) (d_overflow s) true (d_padding s) (d_sent s)) ;; ret 0
    end.
  (** base64_decoder.h: 437-448 *)
  Definition d_push_out (c : Z) : Cmd dec unit :=
    modify (fun s => if (List.length (d_obuf s) <? max)%nat
                     then mkD (d_ibuf s) (d_obuf s ++ [c]) (d_overflow s) (d_invalid s) (d_padding s) (d_sent s)
                     else mkD (d_ibuf s) (d_obuf s) true (d_invalid s) (d_padding s) (d_sent s)).
  Definition d_reset_out : Cmd dec unit := modify (fun s => mkD (d_ibuf s) [] (d_overflow s) (d_invalid s) (d_padding s) (d_sent s)).
  Definition d_reset_in : Cmd dec unit := modify (fun s => mkD [] (d_obuf s) (d_overflow s) (d_invalid s) (d_padding s) (d_sent s)).
  Definition d_call_back (span : list Z) : Cmd dec unit :=
    modify (fun s => mkD (d_ibuf s) (d_obuf s) (d_overflow s) (d_invalid s) (d_padding s) (d_sent s ++ [span])).
  Definition byte_at (sextets shift : Z) : Z := Z.land (Z.shiftr sextets shift) 255.

  (** base64_decoder.h: 480-500; input_buffer has 4 elements *)
  Definition d_push_in (v : Z) : Cmd dec unit :=
    if Z.eqb v PAD then modify (fun s => mkD (d_ibuf s) (d_obuf s) (d_overflow s) (d_invalid s) true (d_sent s))
    else
      let! s := state in
      if d_padding s then
        (if exc then throw "base64_invalid_data"
         else modify (fun s => mkD (d_ibuf s) (d_obuf s) (d_overflow s) true (d_padding s) (d_sent s)))
      else if (List.length (d_ibuf s) <? 4)%nat
           then set (mkD (d_ibuf s ++ [v]) (d_obuf s) (d_overflow s) (d_invalid s) (d_padding s) (d_sent s))
           else fun _ => Bad.

  (** base64_decoder.h: 381-432 *)
  Definition decode_block : Cmd dec bool :=
    let! s := state in
    (match d_ibuf s with
     | [a; b] =>
         let! x := get_index_from_sextet a in
         let! y := get_index_from_sextet b in
         let sextets := Z.lor (Z.shiftl x 6) y in
         d_push_out (byte_at sextets 4)
     | [a; b; c] =>
         let! x := get_index_from_sextet a in
         let! y := get_index_from_sextet b in
         let! z := get_index_from_sextet c in
         let sextets := Z.lor (Z.lor (Z.shiftl x 12) (Z.shiftl y 6)) z in
         d_push_out (byte_at sextets 10) ;; d_push_out (byte_at sextets 2)
     | [a; b; c; d] =>
         let! x := get_index_from_sextet a in
         let! y := get_index_from_sextet b in
         let! z := get_index_from_sextet c in
         let! w := get_index_from_sextet d in
         let sextets := Z.lor (Z.lor (Z.lor (Z.shiftl x 18) (Z.shiftl y 12)) (Z.shiftl z 6)) w in
         d_push_out (byte_at sextets 16) ;; d_push_out (byte_at sextets 8) ;; d_push_out (byte_at sextets 0)
     | _ => ret tt
     end) ;;
    let! s := state in
    (if exc then assert_ (negb (d_invalid s)) "base64_invalid_data" ;; assert_ (negb (d_overflow s)) "base64_overflow" else ret tt) ;;
    ret (negb (d_invalid s) && negb (d_overflow s)).

  (** base64_decoder.h: 72-98 *)
  Definition decode1 (v : Z) : Cmd dec bool :=
    d_push_in v ;;
    let! s := state in
    (if Nat.eqb (List.length (d_ibuf s)) 4 then
       let! ok := decode_block in
       (if ok then
          if cb then
            let! s := state in
            if Nat.eqb (List.length (d_obuf s)) max then d_call_back (d_obuf s) ;; d_reset_out else ret tt
          else ret tt
        else ret tt) ;;
       d_reset_in
     else ret tt) ;;
    let! s := state in ret (negb (d_overflow s || d_invalid s)).

  (** base64_decoder.h: 103-138 *)
  Fixpoint decode (l : list Z) : Cmd dec bool :=
    match l with
    | [] => ret true
    | v :: r => let! b := decode1 v in if b then decode r else ret false
    end.

  (** base64_decoder.h: 163-191 *)
  Definition d_flush : Cmd dec bool :=
    let! success := decode_block in
    d_reset_in ;;
    (if success then
       if cb then
         let! s := state in
         (if Nat.eqb (List.length (d_obuf s)) 0 then ret tt else d_call_back (d_obuf s)) ;;
         d_call_back [] ;;
         d_reset_out
       else ret tt
     else ret tt) ;;
    modify (fun s => mkD (d_ibuf s) (d_obuf s) (d_overflow s) (d_invalid s) false (d_sent s)) ;;
    ret success.

  (** base64_decoder.h: 143-158 *)
  Definition decode_final (l : list Z) : Cmd dec bool :=
    let! b := decode l in if b then d_flush else ret false.

  (** base64_decoder.h: 196-204 *)
  Definition d_restart : Cmd dec unit := d_reset_in ;; d_reset_out ;;
    modify (fun s => mkD (d_ibuf s) (d_obuf s) false false false (d_sent s)).
End Decoder.

(** base64_decoder.h: 335-341 *)
Definition decoded_size (n : nat) : nat := (n - n / 4)%nat.
