(** Model of /repo/bricks/util/base64.h. *)
From Coq Require Import String.
From Verif Require Import Base.
Local Open Scope list_scope.

(** base64.h 62, [EncodingType]. *)
Inductive b64type := Canonical | URL.

(** base64.h 45-47. *)
Definition encode_map : bytes := bs "ABCDEFGHIJKLMNOPQRSTUVWXYZabcdefghijklmnopqrstuvwxyz0123456789+/".
Definition url_encode_map : bytes := bs "ABCDEFGHIJKLMNOPQRSTUVWXYZabcdefghijklmnopqrstuvwxyz0123456789-_".
Definition pad_char : byte := 61%N.  (* base64.h 48, '=' *)

(** base64.h 50-59. *)
Definition decode_map : list N := [
  255; 255; 255; 255; 255; 255; 255; 255; 255; 255; 255; 255; 255; 255; 255; 255;
  255; 255; 255; 255; 255; 255; 255; 255; 255; 255; 255; 255; 255; 255; 255; 255;
  255; 255; 255; 255; 255; 255; 255; 255; 255; 255; 255; 62; 255; 62; 255; 63;
  52; 53; 54; 55; 56; 57; 58; 59; 60; 61; 255; 255; 0; 255; 255; 255;
  255; 0; 1; 2; 3; 4; 5; 6; 7; 8; 9; 10; 11; 12; 13; 14;
  15; 16; 17; 18; 19; 20; 21; 22; 23; 24; 25; 255; 255; 255; 255; 63;
  255; 26; 27; 28; 29; 30; 31; 32; 33; 34; 35; 36; 37; 38; 39; 40;
  41; 42; 43; 44; 45; 46; 47; 48; 49; 50; 51; 255; 255; 255; 255; 255
]%N.

(** [uint16_t] arithmetic. *)
Definition u16 (x : N) : N := N.land x 65535.

(** base64.h 66. *)
Definition map_of (ty : b64type) : bytes := match ty with Canonical => encode_map | URL => url_encode_map end.
Definition enc_char (ty : b64type) (i : N) : byte := nth (N.to_nat i) (map_of ty) 0%N.

(** base64.h 78-81, the [while (nbits >= 6)] loop; it runs at most twice as [nbits < 14]. *)
Fixpoint enc_drain (fuel : nat) (ty : b64type) (buf nbits : N) : bytes * N :=
  match fuel with
  | O => ([], nbits)
  | S f => if N.leb 6 nbits
           then let r := enc_drain f ty buf (nbits - 6) in
                (enc_char ty (N.land (N.shiftr buf (nbits - 6)) 63) :: fst r, snd r)
           else ([], nbits)
  end.

(** base64.h 75-86: the loop over the input and the last incomplete group. *)
Fixpoint enc_loop (ty : b64type) (buf nbits : N) (input : bytes) : bytes :=
  match input with
  | [] => if N.ltb 0 nbits then [enc_char ty (N.land (N.shiftr (N.shiftl buf 6) nbits) 63)] else []
  | b :: rest =>
      let buf' := u16 (N.shiftl buf 8 + b) in
      let r := enc_drain 2 ty buf' (nbits + 8) in
      fst r ++ enc_loop ty buf' (snd r) rest
  end.

(** base64.h 67: size of the result. *)
Definition enc_size (n : nat) : nat := 4 * (n / 3) + (if Nat.eqb (n mod 3) 0 then 0 else 4).

(** base64.h 65-91, [EncodeInto]/[Encode].  [UB]: more characters than [result_size] would be written. *)
Definition b64_encode (ty : b64type) (input : bytes) : outcome unit bytes :=
  let body := enc_loop ty 0 0 input in
  let n := enc_size (List.length input) in
  if Nat.ltb n (List.length body) then UB
  else Ok (body ++ repeat pad_char (n - List.length body)).

(** base64.h 99-102, [IsValidChar]; [std::isalnum] in the "C" locale (false for negative chars, which
    is what glibc does; by the standard the call itself is undefined for them). *)
Definition is_alnum (c : byte) : bool :=
  ((N.leb 48 c && N.leb c 57) || (N.leb 65 c && N.leb c 90) || (N.leb 97 c && N.leb c 122))%bool.
Definition is_valid_char (ty : b64type) (c : byte) : bool :=
  (is_alnum c || match ty with
                 | Canonical => N.eqb c 43 || N.eqb c 47
                 | URL => N.eqb c 45 || N.eqb c 95
                 end)%bool.

(** base64.h 108-126: the decoding loop.  [out] is what has been written so far ([output_index] is its
    length), [size] the length of [output].  [debug]: compiled without NDEBUG.  [Throw tt] is
    [Base64DecodeException]. *)
Fixpoint dec_loop (debug : bool) (ty : b64type) (size : nat) (buf nbits : N) (out : bytes) (input : bytes)
  : outcome unit bytes :=
  match input with
  | [] => Ok (out ++ repeat 0%N (size - List.length out))      (* [output] keeps the zeroes of resize() *)
  | c :: rest =>
      if N.eqb c pad_char then Ok out                          (* 110-113 *)
      else if (debug && negb (is_valid_char ty c))%bool then Throw tt
      else match nth_error decode_map (N.to_nat c) with
           | None => UB                                        (* 119: read past the end of decode_map *)
           | Some d =>
               let buf' := u16 (N.shiftl buf 6 + d) in
               let nbits' := (nbits + 6)%N in
               if N.leb 8 nbits'
               then if Nat.ltb (List.length out) size
                    then dec_loop debug ty size buf' (nbits' - 8) (out ++ [N.land (N.shiftr buf' (nbits' - 8)) 255]) rest
                    else UB                                    (* 123: write past the end of output *)
               else dec_loop debug ty size buf' nbits' out rest
           end
  end.

(** base64.h 104-130, [DecodeInto]/[Decode]. *)
Definition b64_decode (debug : bool) (ty : b64type) (input : bytes) : outcome unit bytes :=
  dec_loop debug ty (3 * List.length input / 4) 0 0 [] input.
