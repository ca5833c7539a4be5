(** Model of wx_factory/common/eval_expr.py and wx_factory/common/angle24.py. *)
From Coq Require Import ZArith Reals List Bool String Ascii Floats.SpecFloat Lra.
From Flocq Require Import Core.Raux Core.Defs Core.Generic_fmt Core.Round_NE.
Import ListNotations.

(** * eval_expr *)

(** The expressions of Python's ast module, as far as _eval distinguishes them.  Constants: numbers (int, float, and bool,
    which is an int) or anything else (str, bytes, complex, None, Ellipsis).  All other expression nodes (Call, Attribute,
    Subscript, Lambda, ...) are [Other]. *)
Inductive constant := CNumber (x : R) | CNotNumber.
Inductive binop := Add | Sub | Mult | Div | OtherBin.        (* OtherBin: Pow, Mod, FloorDiv, BitXor, MatMult, ... *)
Inductive unop := USub | OtherUn.                             (* OtherUn: UAdd, Not, Invert *)
Inductive expr :=
| Constant (c : constant)
| Name (id : string)
| BinOp (left : expr) (op : binop) (right : expr)
| UnaryOp (op : unop) (operand : expr)
| Other.

Inductive eval_exn := KeyErr | TypeErr | ZeroDivErr.
Inductive eval_result := Val (x : R) | Raise (e : eval_exn).

(** str.lower on ASCII (non-ASCII characters that lower-case to ASCII letters, such as the Kelvin sign, cannot make "pi") *)
Definition lower_ascii (a : ascii) : ascii :=
  let n := nat_of_ascii a in if (Nat.leb 65 n && Nat.leb n 90)%bool then ascii_of_nat (n + 32) else a.
Fixpoint lower (s : string) : string := match s with EmptyString => EmptyString | String a r => String (lower_ascii a) (lower r) end.

(** eval_expr.py:17 -- math.pi is modelled by the real number pi *)
Definition math_constant (id : string) : option R := if String.eqb id "pi" then Some PI else None.

(** eval_expr.py:7-15 -- _operators.  A function or KeyError.  Integers and floats are modelled by real numbers. *)
Definition bin_operator (op : binop) : option (R -> R -> eval_result) :=
  match op with
  | Add => Some (fun a b => Val (a + b)%R)
  | Sub => Some (fun a b => Val (a - b)%R)
  | Mult => Some (fun a b => Val (a * b)%R)
  | Div => Some (fun a b => if Req_EM_T b 0 then Raise ZeroDivErr else Val (a / b)%R)
  | OtherBin => None
  end.
Definition un_operator (op : unop) : option (R -> eval_result) := match op with USub => Some (fun a => Val (- a)%R) | OtherUn => None end.

(** eval_expr.py:26-39 -- _eval; Python evaluates the subscript before the arguments *)
Fixpoint eval (node : expr) : eval_result :=
  match node with
  | Constant (CNumber x) => Val x
  | Constant CNotNumber => Raise TypeErr
  | Name id => match math_constant (lower id) with Some x => Val x | None => Raise KeyErr end
  | BinOp l op r =>
      match bin_operator op with
      | None => Raise KeyErr
      | Some f =>
          match eval l with
          | Raise e => Raise e
          | Val a => match eval r with Raise e => Raise e | Val b => f a b end
          end
      end
  | UnaryOp op e =>
      match un_operator op with
      | None => Raise KeyErr
      | Some f => match eval e with Raise x => Raise x | Val a => f a end
      end
  | Other => Raise TypeErr
  end.

(** * angle24 *)

(** angle24.py:8 *)
Definition interval : R := (2 * PI / IZR (2 ^ 24))%R.

(** angle24.py:17-19 and 20-22 -- the two loops; [None] when the fuel is exhausted *)
Fixpoint wrap_down (fuel : nat) (x : R) : option R :=
  if Rle_dec PI x then match fuel with O => None | S f => wrap_down f (x - 2 * PI)%R end else Some x.
Fixpoint wrap_up (fuel : nat) (x : R) : option R :=
  if Rlt_dec x (- PI) then match fuel with O => None | S f => wrap_up f (x + 2 * PI)%R end else Some x.

(** angle24.py:25 -- round() of Python rounds half to even *)
Definition to24 (x : R) : Z := Z.land (ZnearestE (x / interval) + 2 ^ 23) (2 ^ 24 - 1).

(** angle24.py:11-25 -- encode, over the reals *)
Definition encode (fuel : nat) (x : R) : option Z :=
  match wrap_down fuel x with
  | None => None
  | Some y => match wrap_up fuel y with None => None | Some z => Some (to24 z) end
  end.

(** angle24.py:28-33 -- decode *)
Definition decode (u : Z) : R := (IZR (Z.land u (2 ^ 24 - 1) - 2 ^ 23) * interval)%R.

(** The first loop of encode in binary64 arithmetic (SpecFloat, round to nearest even); math.pi = 7074237752028440 / 2^51,
    and 2.0 * math.pi is exact. *)
Definition f64_pi : spec_float := S754_finite false 7074237752028440 (-51).
Definition f64_two_pi : spec_float := S754_finite false 7074237752028440 (-50).
Definition f64_sub := SFsub 53 1024.
Fixpoint f64_wrap_down (fuel : nat) (x : spec_float) : option spec_float :=
  if SFleb f64_pi x then match fuel with O => None | S f => f64_wrap_down f (f64_sub x f64_two_pi) end else Some x.
