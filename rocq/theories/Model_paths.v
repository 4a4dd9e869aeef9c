(** Model of the identifier-to-path functions of /repo/sparse/tree.go (lines 131-239). *)
From Verif Require Export Common_facts.
Local Open Scope Z_scope.

(** A path: child indices from the root to a leaf.  Go uses []uint16; entries are natural numbers here. *)
Notation path := (list nat).

(** ** Parsing of integers (Go library) *)
(** Digit value of a character in bases up to 16; 99 for other characters. *)
Definition char_val (a : Ascii.ascii) : Z :=
  let b := byte_of_ascii a in
  if (48 <=? b) && (b <=? 57) then b - 48
  else if (97 <=? b) && (b <=? 102) then b - 87
  else if (65 <=? b) && (b <=? 70) then b - 55
  else 99.
(** Digits of [s] in [base], most significant first; fails on any other character. *)
Fixpoint parse_digits (base acc : Z) (s : string) : option Z :=
  match s with
  | EmptyString => Some acc
  | String a s => if char_val a <? base then parse_digits base (acc * base + char_val a) s else None
  end.
(** A non-empty digit string *)
Definition parse_nat (base : Z) (s : string) : option Z :=
  match s with EmptyString => None | _ => parse_digits base 0 s end.
(** Optional sign (+ is 43, - is 45) followed by digits: strconv.ParseInt(s, 10, …) before its range check and
    big.Int.SetString(s, 16).  (Underscores and base prefixes are accepted only in base 0.) *)
Definition parse_int (base : Z) (s : string) : option Z :=
  match s with
  | String a s' =>
    if (byte_of_ascii a =? 43) then parse_nat base s'
    else if (byte_of_ascii a =? 45) then Z.opp <$> parse_nat base s'
    else parse_nat base s
  | EmptyString => None
  end.
(** strconv.ParseInt(s, 10, 32): also fails outside the range of int32. *)
Definition ParseInt32 (s : string) : option Z :=
  match parse_int 10 s with
  | Some n => if (- 2 ^ 31 <=? n) && (n <? 2 ^ 31) then Some n else None
  | None => None
  end.

(** ** Dense ids *)
(** sparse/tree.go:147-150: base-f digits of num, least significant first; runs on fuel. *)
Fixpoint digit_loop (fuel : nat) (f num : Z) : res path :=
  if num <=? 0 then Ret []
  else match fuel with
  | O => Hang
  | S fuel => if f =? 0 then Panic else
    let! rest := digit_loop fuel f (num / f) in Ret (Z.to_nat (num mod f) :: rest)
  end.
(** sparse/tree.go:161-174, from pathLen = L on; runs on fuel. *)
Fixpoint digit_path_len (fuel : nat) (f L : Z) : res nat :=
  match fuel with
  | O => Hang
  | S fuel => if f ^ L >? 10 ^ 9 then Ret (Z.to_nat L) else digit_path_len fuel f (L + 1)
  end.
Definition DigitPathLen_fuel (fuel : nat) (f : Z) : res nat := digit_path_len fuel f 1.
(** 30 iterations are enough for f >= 2; for f <= 1 no number is (see [digit_path_len_small]). *)
Definition DigitPathLen (f : Z) : res nat := DigitPathLen_fuel 30 f.
(** sparse/tree.go:136-158 *)
Definition digit_path (f : Z) (s : string) : res path :=
  check! (String.length s =? 9)%nat in
  match ParseInt32 s with
  | None => Panic
  | Some num =>
    (* num < 2^31, so 31 divisions by f >= 2 suffice; for f = 1 the loop does not end *)
    let! ds := digit_loop 31 f num in
    let! L := DigitPathLen f in
    Ret (if (length ds =? L)%nat then ds else ds ++ [0%nat])
  end.
(** sparse/tree.go:131-159; fanout+1 wraps at 2^16. *)
Definition DigitPath (f : Z) : res (string -> res path) :=
  let! ok := IsPowerOfTwo ((f + 1) mod 2 ^ 16) in
  check! ok in Ret (digit_path f).

(** ** Hexadecimal ids *)
(** sparse/tree.go:177-191 *)
Definition hex_path_length (f : Z) : option nat :=
  match f with
  | 3 => Some 162%nat | 7 => Some 91%nat | 15 => Some 66%nat | 31 => Some 52%nat | 63 => Some 43%nat
  | 127 => Some 37%nat | 255 => Some 32%nat | 511 => Some 29%nat | 1023 => Some 26%nat | 2047 => Some 24%nat
  | 4095 => Some 22%nat | 8191 => Some 20%nat | 16383 => Some 19%nat | _ => None
  end.

(** sparse/tree.go:233-236: Go's Mod and Div on big integers are Euclidean, which for f > 0 is rounding
    down; runs on fuel. *)
Fixpoint hex_digit_loop (fuel : nat) (f n : Z) : res path :=
  if n =? 0 then Ret []
  else match fuel with
  | O => Hang
  | S fuel => let! rest := hex_digit_loop fuel f (n / f) in Ret (Z.to_nat (n mod f) :: rest)
  end.
(** sparse/tree.go:223-239.  The number of binary digits of n is enough fuel when n >= 0 and f >= 2;
    when n < 0 no fuel is (see [hex_digit_loop_neg]). *)
Definition convertPathWithFanout (s : string) (f : Z) : res path :=
  match parse_int 16 s with
  | None => Panic
  | Some n => hex_digit_loop (Z.to_nat (Z.log2 (Z.abs n)) + 1) f n
  end.

Section Hex.
  Context {C : Curve}.
  (** hex.EncodeToString *)
  Definition hex_char (d : Z) : Ascii.ascii :=
    Ascii.ascii_of_N (Z.to_N (if d <? 10 then 48 + d else 87 + d)).
  Fixpoint hex_string (bs : bytes) : string :=
    match bs with [] => "" | b :: bs => String (hex_char (b / 16)) (String (hex_char (b mod 16)) (hex_string bs)) end.
  (** sparse/tree.go:217-221 *)
  Definition hash (s : string) : string := hex_string (sha256 C (string_bytes s)).
  (** sparse/tree.go:204-214; the unbounded loop runs on fuel. *)
  Fixpoint hex_path (fuel : nat) (f : Z) (expected : nat) (s : string) : res path :=
    match fuel with
    | O => Hang
    | S fuel =>
      let! p := convertPathWithFanout s f in
      if (length p =? expected)%nat then Ret p else hex_path fuel f expected (hash s)
    end.
  (** sparse/tree.go:194-215; the returned closure takes the number of iterations allowed. *)
  Definition HexId2PathForFanOut (f : Z) : res (nat -> string -> res path) :=
    let! ok := IsPowerOfTwo ((f + 1) mod 2 ^ 16) in
    check! ok in
    match hex_path_length f with
    | None => Panic
    | Some L => Ret (fun fuel s => hex_path fuel f L s)
    end.
End Hex.
