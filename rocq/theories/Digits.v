(** * Numbers as text

    Model of the conversions between doubles and text that the code uses:
    - [toString] (/repo/curves/src/helpers.cpp lines 14-17), which is operator<< of an
      output stream with its default format, that is printf's "%g": six significant digits;
    - fprintf with "%lf" (/repo/curves/src/CubicHermiteSE3Curve.cpp lines 73-77,
      /repo/curves/src/CubicHermiteE3Curve.cpp lines 70-72): six digits after the point;
    - [atof] (/repo/curves/src/helpers.cpp lines 74, 76, 123, 124, 126).
    They follow the C standard for decimal numbers as glibc implements it: the digits are
    those of the exact binary value, rounded to nearest with ties to even, and [atof] returns
    the double nearest to the decimal number.  Simplifications: the "C" locale; [atof] does not
    skip white space and does not know hexadecimal numbers nor capital letters; there is one NaN,
    without a sign. *)

From Coq Require Import List Bool Arith ZArith Ascii.
From Flocq Require Import Core IEEE754.BinarySingleNaN.
From Verif Require Import Base TimeB64 Csv.
Import ListNotations.
Local Open Scope Z_scope.

(** ** Positive rational numbers [n / d] *)

(** The nearest integer, ties to even. Not in the source: printf, CubicHermiteSE3Curve.cpp lines 73-77. *)
Definition round_half_even (n d : Z) : Z :=
  let q := n / d in
  match Z.compare (2 * (n mod d)) d with
  | Lt => q
  | Gt => q + 1
  | Eq => if Z.even q then q else q + 1
  end.

(** 10^k <= n / d. Not in the source: helper. *)
Definition pow10_le (k n d : Z) : bool :=
  if 0 <=? k then 10 ^ k * d <=? n else d <=? n * 10 ^ (- k).

(** Counts up from [k] as long as 10^(k+1) <= n / d. Not in the source: helper. *)
Fixpoint climb (fuel : nat) (k n d : Z) : Z :=
  match fuel with
  | O => k
  | S fuel => if pow10_le (k + 1) n d then climb fuel (k + 1) n d else k
  end.

(** The place of the first digit: the [k] with 10^k <= n / d < 10^(k+1). Not in the source: helper. *)
Definition exponent10 (n d : Z) : Z :=
  climb (Z.to_nat (Z.log2 n + Z.log2 d + 2)) (- (Z.log2 d + 1)) n d.

(** [n / d] in units of 10^k, rounded. Not in the source: helper. *)
Definition scaled (k n d : Z) : Z :=
  if 0 <=? k then round_half_even n (d * 10 ^ k) else round_half_even (n * 10 ^ (- k)) d.

(** Six significant digits [m] and the place of the first one.
    Not in the source: the conversion of operator<<, helpers.cpp line 16. *)
Definition six_digits (n d : Z) : Z * Z :=
  let k := exponent10 n d in
  let m := scaled (k - 5) n d in
  if m =? 10 ^ 6 then (10 ^ 5, k + 1) else (m, k).

(** ** Text *)

(** Not in the source: the characters of digits. *)
Definition digit (n : Z) : ascii := ascii_of_N (48 + Z.to_N n).

(** The last [w] digits of [n] in front of [acc]. Not in the source: helper. *)
Fixpoint fixed (w : nat) (n : Z) (acc : text) : text :=
  match w with
  | O => acc
  | S w => fixed w (n / 10) (digit (n mod 10) :: acc)
  end.

(** The number of digits of [n]. Not in the source: helper. *)
Definition width (n : Z) : nat := if n =? 0 then 1%nat else Z.to_nat (exponent10 n 1 + 1).

(** A decimal numeral with at least [w] digits. Not in the source: helper. *)
Definition numeral (w : nat) (n : Z) : text := fixed (Nat.max w (width n)) n [].

(** Trailing zeros are removed; without a digit after the point there is no point.
    Not in the source: the conversion of operator<<, helpers.cpp line 16. *)
Fixpoint strip (s : text) : text :=
  match s with
  | [] => []
  | a :: r => match strip r with
              | [] => if Ascii.eqb a "0" then [] else [a]
              | r' => a :: r'
              end
  end.
(** Not in the source: the point in front of the fraction, helpers.cpp line 16. *)
Definition fraction (s : text) : text := match s with [] => [] | _ => "."%char :: s end.

(** Six digits in the format of operator<<: scientific if the place is below -4 or above 5.
    Not in the source: the conversion of operator<<, helpers.cpp line 16. *)
Definition general_text (m k : Z) : text :=
  let ds := fixed 6 m [] in
  if (k <? -4) || (6 <=? k) then
    firstn 1 ds ++ fraction (strip (skipn 1 ds)) ++ "e"%char :: (if k <? 0 then "-"%char else "+"%char) :: numeral 2 (Z.abs k)
  else if 0 <=? k then
    firstn (Z.to_nat (k + 1)) ds ++ fraction (strip (skipn (Z.to_nat (k + 1)) ds))
  else "0"%char :: fraction (strip (repeat "0"%char (Z.to_nat (- k - 1)) ++ ds)).

(** [N] millionths with six digits after the point.
    Not in the source: "%lf", CubicHermiteSE3Curve.cpp lines 73-77. *)
Definition fixed_text (N : Z) : text := numeral 1 (N / 10 ^ 6) ++ "."%char :: fixed 6 (N mod 10 ^ 6) [].

(** The exact value of a double as a fraction. Not in the source: helper. *)
Definition fraction_of (m : positive) (e : Z) : Z * Z :=
  if 0 <=? e then (Zpos m * 2 ^ e, 1) else (Zpos m, 2 ^ (- e)).

(** The minus sign. Not in the source: helper. *)
Definition signed (s : bool) (t : text) : text := if s then "-"%char :: t else t.
(** Not in the source: the text of an infinite number, helpers.cpp line 16. *)
Definition inf_text : text := ["i"; "n"; "f"]%char.
(** Not in the source: the text of NaN, helpers.cpp line 16. *)
Definition nan_text : text := ["n"; "a"; "n"]%char.

(** toString<double>, helpers.cpp lines 14-17 *)
Definition to_string6 (x : b64) : text :=
  match x with
  | B754_zero s => signed s ["0"%char]
  | B754_infinity s => signed s inf_text
  | B754_nan => nan_text
  | B754_finite s m e _ =>
      let (n, d) := fraction_of m e in
      let (digits, k) := six_digits n d in
      signed s (general_text digits k)
  end.

(** fprintf with "%lf", CubicHermiteSE3Curve.cpp lines 73-77, CubicHermiteE3Curve.cpp lines 70-72 *)
Definition show_lf (x : b64) : text :=
  match x with
  | B754_zero s => signed s (fixed_text 0)
  | B754_infinity s => signed s inf_text
  | B754_nan => nan_text
  | B754_finite s m e _ => let (n, d) := fraction_of m e in signed s (fixed_text (scaled (-6) n d))
  end.

(** ** Reading *)

(** The value of a digit. Not in the source: helper. *)
Definition digit_value (a : ascii) : option Z :=
  let n := Z.of_N (N_of_ascii a) - 48 in
  if (0 <=? n) && (n <? 10) then Some n else None.

(** Reads digits: the number they continue [acc] to, how many there were (from [c] on) and the rest.
    Not in the source: atof, helpers.cpp line 74. *)
Fixpoint read_digits (s : text) (acc c : Z) : Z * Z * text :=
  match s with
  | [] => (acc, c, [])
  | a :: r => match digit_value a with
              | Some v => read_digits r (acc * 10 + v) (c + 1)
              | None => (acc, c, s)
              end
  end.

(** An exponent, 0 if there is none. Not in the source: atof, helpers.cpp line 74. *)
Definition read_exponent (s : text) : Z :=
  match s with
  | "e"%char :: "-"%char :: r => - fst (fst (read_digits r 0 0))
  | "e"%char :: "+"%char :: r => fst (fst (read_digits r 0 0))
  | "e"%char :: r => fst (fst (read_digits r 0 0))
  | _ => 0
  end.

(** A decimal number without sign: [(m, e)] is m * 10^e; characters after it are ignored.
    Not in the source: atof, helpers.cpp line 74. *)
Definition read_decimal (s : text) : Z * Z :=
  let '(i, _, r) := read_digits s 0 0 in
  let '(m, c, r') := match r with
                     | "."%char :: f => read_digits f i 0
                     | _ => (i, 0, r)
                     end in
  (m, read_exponent r' - c).

(** The double nearest to m * 10^e. Not in the source: atof, helpers.cpp line 74. *)
Definition nearest (s : bool) (m : positive) (e : Z) : SpecFloat.spec_float :=
  let n := if 0 <=? e then (m * Z.to_pos (10 ^ e))%positive else m in
  let d := if 0 <=? e then xH else Z.to_pos (10 ^ (- e)) in
  let '(mz, ez, lz) := SpecFloat.SFdiv_core_binary 53 1024 (Zpos n) 0 (Zpos d) 0 in
  binary_round_aux 53 1024 mode_NE s mz ez lz.

(** Not in the source: helper, [nearest] is a valid double. *)
Lemma nearest_valid s m e : SpecFloat.valid_binary 53 1024 (nearest s m e) = true.
Proof.
  unfold nearest. set (n := if 0 <=? e then _ else _). set (d := if 0 <=? e then _ else _).
  pose proof (Bdiv_correct_aux 53 1024 eq_refl eq_refl mode_NE s n 0 false d 0) as H. cbv zeta in H.
  rewrite xorb_false_r in H. apply H.
Qed.

(** Without a sign. Not in the source: atof, helpers.cpp line 74. *)
Definition atof_unsigned (s : bool) (t : text) : b64 :=
  match t with
  | "i"%char :: "n"%char :: "f"%char :: _ => B754_infinity s
  | "n"%char :: "a"%char :: "n"%char :: _ => B754_nan
  | _ => match fst (read_decimal t) with
         | Zpos m => SF2B _ (nearest_valid s m (snd (read_decimal t)))
         | _ => B754_zero s
         end
  end.

(** atof, helpers.cpp lines 74, 76, 123, 124 and 126 *)
Definition atof (t : text) : b64 :=
  match t with
  | "-"%char :: r => atof_unsigned true r
  | "+"%char :: r => atof_unsigned false r
  | _ => atof_unsigned false t
  end.
