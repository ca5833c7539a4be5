(** Model of the checks that the explicit Runge-Kutta solvers make on their tableau, and of the choice of the method in exode. *)
From Coq Require Import List QArith Qabs Qreals Reals Bool String.
From Verif Require Import RkModel ButcherTables.
Import ListNotations.
Local Open Scope Q_scope.

(** numpy.ndarray.shape == (rows, cols), for an array of [rows] > 0 rows *)
Definition shape_is (rows cols : nat) (A : list (list Q)) : bool :=
  Nat.eqb (List.length A) rows && forallb (fun row => Nat.eqb (List.length row) cols) A.
(** numpy.finfo(float).eps *)
Definition float_eps : Q := 1 # 4503599627370496.

(** explicit_runge_kutta.py:171-239 -- _validate_butcher_tableau, called by the constructor (line 97); [false]: ValueError.  The warnings
    are not modelled; the attributes have the types the classes of butcher.py give them, so that the tests of types pass. *)
Definition validate (m : method) : bool :=
  let n := m_stages m in
  Nat.ltb 0 n && shape_is n n (mA m) &&
  Nat.eqb (List.length (mB m)) n && Nat.eqb (List.length (mC m)) n && Nat.eqb (List.length (mE m)) (n + 1) &&
  forallb (fun i => forallb (fun j => Qle_bool (Qabs (nth j (nth i (mA m) []) 0)) float_eps) (seq i (n - i))) (seq 0 n) &&
  forallb (fun c => Qle_bool 0 c && Qle_bool c 1) (mC m) &&
  Nat.ltb 0 (m_order m) && Nat.ltb 0 (m_est m).

(** The class attributes as the solver uses them, with real numbers for the doubles *)
Definition method_tab (m : method) : tableau :=
  {| n_stages := m_stages m; tA := map (map Q2R) (mA m); tB := map Q2R (mB m); tC := map Q2R (mC m); tE := map Q2R (mE m) |}.

(** str.upper, on ASCII letters *)
Definition upper_char (c : Ascii.ascii) : Ascii.ascii :=
  let k := Ascii.nat_of_ascii c in if Nat.leb 97 k && Nat.leb k 122 then Ascii.ascii_of_nat (k - 32) else c.
Fixpoint upper (s : string) : string := match s with EmptyString => EmptyString | String c r => String (upper_char c) (upper r) end.
(** exode.py:44-49 -- [None]: ValueError *)
Definition find_method (name : string) : option method := find (fun m => String.eqb (m_name m) (upper name)) METHODS.
(** exode.py:13 -- the default value of the parameter [method] *)
Definition exode_default : string := "ARK3(2)4L[2]SA-ERK".
(** exode.py:44-62 -- the method with which the solver is constructed; [None]: ValueError, either because there is no method of that name
    or from the constructor, which validates the tableau (explicit_runge_kutta.py:97) *)
Definition exode_method (name : string) : option method :=
  match find_method name with Some m => if validate m then Some m else None | None => None end.
