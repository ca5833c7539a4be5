(** Specification vocabulary for properties C17 and C18. *)
From Coq Require Import ZArith Reals String.
From Verif Require Import ExprModel.
Local Open Scope R_scope.

(** The mathematical value of an expression *)
Inductive denotes : expr -> R -> Prop :=
| d_num x : denotes (Constant (CNumber x)) x
| d_pi s : (s = "pi" \/ s = "Pi" \/ s = "pI" \/ s = "PI")%string -> denotes (Name s) PI
| d_add a b x y : denotes a x -> denotes b y -> denotes (BinOp a Add b) (x + y)
| d_sub a b x y : denotes a x -> denotes b y -> denotes (BinOp a Sub b) (x - y)
| d_mul a b x y : denotes a x -> denotes b y -> denotes (BinOp a Mult b) (x * y)
| d_div a b x y : denotes a x -> denotes b y -> y <> 0 -> denotes (BinOp a Div b) (x / y)
| d_neg a x : denotes a x -> denotes (UnaryOp USub a) (- x).

(** The expression contains something else than numbers, pi and the five operators *)
Inductive foreign : expr -> Prop :=
| x_const : foreign (Constant CNotNumber)
| x_name s : (s <> "pi" /\ s <> "Pi" /\ s <> "pI" /\ s <> "PI")%string -> foreign (Name s)
| x_other : foreign Other
| x_binop a b : foreign (BinOp a OtherBin b)
| x_unop a : foreign (UnaryOp OtherUn a)
| x_left a op b : foreign a -> foreign (BinOp a op b)
| x_right a op b : foreign b -> foreign (BinOp a op b)
| x_operand op a : foreign a -> foreign (UnaryOp op a).

(** The expression contains a division whose divisor has the value zero *)
Inductive divides_by_zero : expr -> Prop :=
| z_here a b : denotes b 0 -> divides_by_zero (BinOp a Div b)
| z_left a op b : divides_by_zero a -> divides_by_zero (BinOp a op b)
| z_right a op b : divides_by_zero b -> divides_by_zero (BinOp a op b)
| z_operand op a : divides_by_zero a -> divides_by_zero (UnaryOp op a).

(** Two angles are the same direction up to an error *)
Definition close_mod_2pi (eps x y : R) : Prop := exists k : Z, Rabs (x - y - 2 * PI * IZR k) <= eps.
(** One quantum of a 24-bit angle *)
Definition quantum : R := 2 * PI / 16777216.
