(** checksum.h, fnv_1.h, jenkins.h, murmur3.h, pearson.h: objects that are fed bytes. frame_check_sequence.h is CrcModel.policy. *)
From Coq Require Import List Arith Bool ZArith.
From Verif Require Import Util BinaryModel CrcModel HashSpec.
Import ListNotations.
Local Open Scope Z_scope.
(** ** What a client can do with a hash object: V is value_type. None: hash_finalised is raised, the object does not change *)
Record hasher (V : Type) : Type := {
  St : Type;
  fresh : St;                                (** constructor *)
  reset : St -> St;
  add1 : St -> Z -> option St;               (** add(uint8_t) *)
  add_range : St -> bool -> list Z -> option St;   (** add(begin, end); true: the iterator is to signed char *)
  value : St -> St * V }.
Arguments St {V}. Arguments fresh {V}. Arguments reset {V}. Arguments add1 {V}. Arguments add_range {V}. Arguments value {V}.
(** what *begin is as an int *)
Definition read_as (signed_char : bool) (b : Z) : Z := if signed_char then sg 8 b else b.
(** frame_check_sequence.h: 97-191: add takes a uint8_t, so *begin is converted back (148-152) *)
Definition of_policy (p : policy) : hasher Z := {|
  St := Z;
  fresh := initial p;
  reset := fun _ => initial p;
  add1 := fun frame_check v => Some (padd p frame_check v);
  add_range := fun frame_check sc l => Some (fold_left (fun f b => padd p f (tr 8 (read_as sc b))) l frame_check);
  value := fun frame_check => (frame_check, pfinal p frame_check) |}.
(** checksum.h: 45-63; T has w bits *)
Definition sum_policy (w : Z) : policy := {| initial := 0; padd := fun s v => tr w (s + v); pfinal := fun s => s |}.
(** checksum.h: 69-87 *)
Definition bsd_policy (w : Z) : policy := {| initial := 0; padd := fun s v => tr w (rotate_right1 w s + v); pfinal := fun s => s |}.
(** checksum.h: 93-111 *)
Definition xor_policy (w : Z) : policy := {| initial := 0; padd := fun s v => tr w (s ^^^ v); pfinal := fun s => s |}.
(** checksum.h: 117-135 *)
Definition xor_rotate_policy (w : Z) : policy := {| initial := 0; padd := fun s v => tr w (rotate_left1 w s ^^^ v); pfinal := fun s => s |}.
(** checksum.h: 141-159 *)
Definition parity_policy (w : Z) : policy := {| initial := 0; padd := fun s v => tr w (s ^^^ parity 8 v); pfinal := fun s => s |}.
(** fnv_1.h: 56-79, 173-196 *)
Definition fnv_1_policy (w basis prime : Z) : policy := {| initial := basis; padd := fun h v => tr w (h * prime) ^^^ v; pfinal := fun h => h |}.
(** fnv_1.h: 114-137, 231-254 *)
Definition fnv_1a_policy (w basis prime : Z) : policy := {| initial := basis; padd := fun h v => tr w ((h ^^^ v) * prime); pfinal := fun h => h |}.
Definition fnv_1_policy_64 := fnv_1_policy 64 0xCBF29CE484222325 0x00000100000001b3.
Definition fnv_1a_policy_64 := fnv_1a_policy 64 0xCBF29CE484222325 0x00000100000001b3.
Definition fnv_1_policy_32 := fnv_1_policy 32 0x811C9DC5 0x01000193.
Definition fnv_1a_policy_32 := fnv_1a_policy 32 0x811C9DC5 0x01000193.
(** ** jenkins.h: 57-90: the policy is an object with a flag *)
Definition jenkins_add (hash value : Z) : Z :=
  let hash := tr 32 (hash + value) in
  let hash := tr 32 (hash + tr 32 (hash << 10)) in
  hash ^^^ (hash >> 6).
Definition jenkins_final (hash : Z) : Z :=
  let hash := tr 32 (hash + tr 32 (hash << 3)) in
  let hash := hash ^^^ (hash >> 11) in
  tr 32 (hash + tr 32 (hash << 15)).
Fixpoint jenkins_range (sc : bool) (s : Z * bool) (l : list Z) : option (Z * bool) :=
  match l with
  | [] => Some s
  | b :: r => let '(hash, is_finalised) := s in if is_finalised : bool then None else jenkins_range sc (jenkins_add hash (tr 8 (read_as sc b)), false) r
  end.
Definition jenkins : hasher Z := {|
  St := Z * bool;
  fresh := (0, false);
  reset := fun _ => (0, false);
  add1 := fun '(hash, is_finalised) v => if is_finalised : bool then None else Some (jenkins_add hash v, false);
  add_range := fun s sc l => jenkins_range sc s l;
  value := fun '(hash, _) => ((hash, true), jenkins_final hash) |}.
(** ** murmur3.h: 56-238; THash has w bits (32 or 64), size_t has 64 *)
Section Murmur.
Variables (w seed : Z).
Record mstate := { is_finalised : bool; fill : Z; char_count : Z; block : Z; mhash : Z }.
(** 231-237 *)
Definition CONSTANT1 := 0xCC9E2D51.
Definition CONSTANT2 := 0x1B873593.
Definition SHIFT1 := 15.
Definition SHIFT2 := 13.
Definition MULTIPLY := 5.
Definition ADD := 0xE6546B64.
(** 192-194, 208-210 *)
Definition mix_block (block : Z) : Z := tr w (rotate_left w (tr w (block * CONSTANT1)) SHIFT1 * CONSTANT2).
(** 190-199 *)
Definition add_block (hash block : Z) : Z := tr w (rotate_left w (hash ^^^ mix_block block) SHIFT2 * MULTIPLY + ADD).
(** 72-76, 110-117 *)
Definition m_reset : mstate := {| is_finalised := false; fill := 0; char_count := 0; block := 0; mhash := seed |}.
(** 132-142, 156-165: v is an int: v << n is an int (32 bits), converted to THash *)
Definition m_byte (s : mstate) (v : Z) : mstate :=
  let b := block s ||| tr w (sg 32 (v << (fill s * 8))) in
  let count := tr 64 (char_count s + 1) in
  if fill s + 1 =? 4
  then {| is_finalised := is_finalised s; fill := 0; char_count := count; block := 0; mhash := add_block (mhash s) b |}
  else {| is_finalised := is_finalised s; fill := fill s + 1; char_count := count; block := b; mhash := mhash s |}.
(** 204-222 *)
Definition m_finalise (s : mstate) : mstate :=
  if is_finalised s then s
  else
    let block := mix_block (block s) in
    let hash := mhash s ^^^ block in
    let hash := hash ^^^ tr w (char_count s) in
    let hash := hash ^^^ (hash >> 16) in
    let hash := tr w (hash * 0x85EBCA6B) in
    let hash := hash ^^^ (hash >> 13) in
    let hash := tr w (hash * 0xC2B2AE35) in
    let hash := hash ^^^ (hash >> 16) in
    {| is_finalised := true; fill := fill s; char_count := char_count s; block := block; mhash := hash |}.
(** 125-144, 151-166, 171-175 *)
Definition murmur3 : hasher Z := {|
  St := mstate;
  fresh := m_reset;
  reset := fun _ => m_reset;
  add1 := fun s v => if is_finalised s then None else Some (m_byte s v);
  add_range := fun s sc l => if is_finalised s then None else Some (fold_left (fun s b => m_byte s (read_as sc b)) l s);
  value := fun s => let s := m_finalise s in (s, mhash s) |}.
End Murmur.
(** ** pearson.h: 60-178 *)
(** 120-138 *)
Definition PEARSON_LOOKUP : list Z :=
  [228;39;61;95;227;187;0;197;31;189;161;222;34;15;221;246;19;234;6;50;113;3;91;63;77;245;144;2;183;196;25;226;
   97;126;48;59;217;4;100;145;12;88;203;149;80;154;38;27;224;218;158;115;202;79;53;83;242;36;139;131;136;191;42;170;
   23;99;156;51;143;60;233;206;62;108;17;67;81;71;93;195;26;231;247;96;24;200;176;209;152;212;138;165;75;185;130;248;
   125;110;10;116;201;90;69;204;85;251;78;157;47;184;169;141;134;230;89;21;146;46;55;128;148;207;216;11;114;199;103;102;
   166;244;5;104;225;160;132;28;172;65;121;140;153;119;198;210;58;87;117;177;33;22;13;37;49;174;109;40;73;211;18;167;
   164;252;168;74;30;173;35;98;66;193;94;175;86;54;179;122;220;151;192;29;133;254;155;127;240;232;190;180;8;68;236;20;
   137;92;219;208;52;250;147;142;111;112;120;45;135;255;123;229;57;182;243;124;186;253;7;237;9;16;70;171;235;107;223;118;
   215;178;194;181;43;188;106;105;64;241;84;238;159;44;32;76;213;163;150;101;129;14;249;205;214;1;41;56;162;72;239;82].
Definition lookup (i : Z) : Z := nth (Z.to_nat i) PEARSON_LOOKUP 0.
Section Pearson.
Variable HASH_LENGTH : nat.
(** 118-156: i counts in size_t: HASH_LENGTH < 2^64 - 256 *)
Definition p_byte (s : bool * list Z) (value_ : Z) : bool * list Z :=
  let '(first, hash) := s in
  if first : bool then (false, map (fun i => lookup ((value_ + Z.of_nat i) mod 256)) (seq 0 HASH_LENGTH))
  else (false, map (fun h => lookup (h ^^^ value_)) hash).
(** 69-73, 93-96: reset does not touch first *)
Definition pearson : hasher (list Z) := {|
  St := bool * list Z;
  fresh := (true, repeat 0 HASH_LENGTH);
  reset := fun '(first, _) => (first, repeat 0 HASH_LENGTH);
  add1 := fun s v => Some (p_byte s v);
  add_range := fun s sc l => Some (fold_left (fun s b => p_byte s (tr 8 (read_as sc b))) l s);
  value := fun '(first, hash) => ((first, hash), hash) |}.
End Pearson.
(** ** a client's calls, one after the other (HashSpec.hcall); None: one of them raised *)
Definition call_on {V} (H : hasher V) (s : St H) (c : hcall) : option (St H) :=
  match c with HAdd sc l => add_range H s sc l | HAdd1 b => add1 H s b | HReset => Some (reset H s) | HValue => Some (fst (value H s)) end.
Fixpoint run {V} (H : hasher V) (s : St H) (h : list hcall) : option (St H) :=
  match h with [] => Some s | c :: r => match call_on H s c with Some s => run H s r | None => None end end.
