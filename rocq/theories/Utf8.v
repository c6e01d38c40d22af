(** UTF-8 and the percent-encoding of urllib.parse, as used by simpleuri.py
    (lines 9-12, 28, 177) and memory.py (lines 145-150).  These are library
    functions; they are modelled from the Python 3 documentation and source. *)
From Verif Require Import Str Exc.
Local Open Scope N_scope.

(** Unicode scalar values: every code point but the surrogates. *)
Definition scalar (c : N) : bool := (c <? 55296) || (57344 <=? c) && (c <=? 1114111).

(** UTF-8 encoding of one scalar value. *)
Definition enc1 (c : N) : list N :=
  if c <? 128 then [c]
  else if c <? 2048 then [192 + c / 64; 128 + c mod 64]
  else if c <? 65536 then [224 + c / 4096; 128 + (c / 64) mod 64; 128 + c mod 64]
  else [240 + c / 262144; 128 + (c / 4096) mod 64; 128 + (c / 64) mod 64; 128 + c mod 64].

(** [s.encode('utf-8')]: lone surrogates raise UnicodeEncodeError. *)
Definition utf8_encode (s : str) : res (list N) :=
  if forallb scalar s then Ok (flat_map enc1 s) else Raise UnicodeEncodeError.

Definition cont (b : N) : bool := (128 <=? b) && (b <=? 191).
Definition between (lo b hi : N) : bool := (lo <=? b) && (b <=? hi).

(** One decoding step: a character and the remaining bytes, or a maximal
    ill-formed prefix skipped. *)
Inductive dstep := Good (c : N) (rest : list N) | Bad (rest : list N).

Definition dec_step (b0 : N) (r0 : list N) : dstep :=
  if b0 <? 128 then Good b0 r0
  else if between 194 b0 223 then
    match r0 with
    | b1 :: r1 => if cont b1 then Good ((b0 - 192) * 64 + (b1 - 128)) r1 else Bad r0
    | [] => Bad r0
    end
  else if between 224 b0 239 then
    let lo := if b0 =? 224 then 160 else 128 in
    let hi := if b0 =? 237 then 159 else 191 in
    match r0 with
    | b1 :: r1 =>
        if between lo b1 hi then
          match r1 with
          | b2 :: r2 => if cont b2
                        then Good ((b0 - 224) * 4096 + (b1 - 128) * 64 + (b2 - 128)) r2
                        else Bad r1
          | [] => Bad r1
          end
        else Bad r0
    | [] => Bad r0
    end
  else if between 240 b0 244 then
    let lo := if b0 =? 240 then 144 else 128 in
    let hi := if b0 =? 244 then 143 else 191 in
    match r0 with
    | b1 :: r1 =>
        if between lo b1 hi then
          match r1 with
          | b2 :: r2 =>
              if cont b2 then
                match r2 with
                | b3 :: r3 => if cont b3
                              then Good ((b0 - 240) * 262144 + (b1 - 128) * 4096
                                         + (b2 - 128) * 64 + (b3 - 128)) r3
                              else Bad r2
                | [] => Bad r2
                end
              else Bad r1
          | [] => Bad r1
          end
        else Bad r0
    | [] => Bad r0
    end
  else Bad r0.

(** [b.decode('utf-8')] (strict), with the length as recursion budget. *)
Fixpoint decode_fuel (fuel : nat) (b : list N) : res str :=
  match b with
  | [] => Ok []
  | b0 :: r0 =>
      match fuel with
      | O => Raise OutOfFuel
      | S f => match dec_step b0 r0 with
               | Good c rest => rlet t <- decode_fuel f rest; Ok (c :: t)
               | Bad _ => Raise UnicodeDecodeError
               end
      end
  end.
Definition utf8_decode (b : list N) : res str := decode_fuel (length b) b.

(** [b.decode('utf-8', 'replace')] *)
Fixpoint decode_replace_fuel (fuel : nat) (b : list N) : str :=
  match b with
  | [] => []
  | b0 :: r0 =>
      match fuel with
      | O => []
      | S f => match dec_step b0 r0 with
               | Good c rest => c :: decode_replace_fuel f rest
               | Bad rest => 65533 :: decode_replace_fuel f rest
               end
      end
  end.
Definition utf8_decode_replace (b : list N) : str := decode_replace_fuel (length b) b.

(** urllib.parse.quote's always-safe characters. *)
Definition always_safe (c : N) : bool :=
  between 65 c 90 || between 97 c 122 || between 48 c 57
  || (c =? cUnder) || (c =? cDot) || (c =? cMinus) || (c =? 126).

Definition hexdig (n : N) : N := if n <? 10 then 48 + n else 55 + n.
Definition hexval (c : N) : option N :=
  if between 48 c 57 then Some (c - 48)
  else if between 65 c 70 then Some (c - 55)
  else if between 97 c 102 then Some (c - 87)
  else None.

Definition quote_byte (b : N) : str :=
  if always_safe b then [b]
  else if b =? cSpace then [cPlus]
  else [cPct; hexdig (b / 16); hexdig (b mod 16)].

(** [urllib.parse.quote_plus(s)] *)
Definition quote_plus (s : str) : res str :=
  rlet b <- utf8_encode s; Ok (flat_map quote_byte b).

(** [urllib.parse.unquote(s)]: runs of ASCII characters are percent-decoded
    to bytes and these decoded as UTF-8 with replacement; other characters stay.
    [buf] holds the bytes of the current ASCII run, reversed. *)
Fixpoint unquote_go (buf : list N) (s : str) : str :=
  match s with
  | [] => utf8_decode_replace (rev buf)
  | c :: s' =>
      if 128 <=? c then utf8_decode_replace (rev buf) ++ c :: unquote_go [] s'
      else if c =? cPct then
        match s' with
        | h1 :: (h2 :: s'') =>
            match hexval h1, hexval h2 with
            | Some a, Some b => unquote_go (16 * a + b :: buf) s''
            | _, _ => unquote_go (c :: buf) s'
            end
        | _ => unquote_go (c :: buf) s'
        end
      else unquote_go (c :: buf) s'
  end.
Definition unquote (s : str) : str := unquote_go [] s.

(** [urllib.parse.unquote_plus(s)] *)
Definition unquote_plus (s : str) : str := unquote (replace_char cPlus cSpace s).

(** [urllib.parse.urlencode(d)] *)
Fixpoint urlencode_items (d : dict str) : res (list str) :=
  match d with
  | [] => Ok []
  | (k, v) :: d' =>
      rlet qk <- quote_plus k;
      rlet qv <- quote_plus v;
      rlet l <- urlencode_items d';
      Ok ((qk ++ [cEq] ++ qv) :: l)
  end.
Definition urlencode (d : dict str) : res str :=
  rlet l <- urlencode_items d; Ok (join_with [cAmp] l).
