(** * Specification of feature transformations. *)

From Coq Require Import String DecimalString.
From Coq Require Import List ZArith Arith.
Import ListNotations.
From Verif Require Import Np TscModel TrModel.
Open Scope nat_scope.

(** A frame with unique names and complete columns. *)
Record GoodFrame {I V : Type} (X : frame I V) : Prop := {
  gf_names : NoDup (names X);
  gf_columns : forall name col, In (name, col) (fcols X) -> length col = length (findex X)
}.

Section Monomials.
Context {V : Type}.
Variables (one : V) (mul : V -> V -> V).

Fixpoint power (x : V) (e : nat) : V := match e with 0 => one | S e' => mul x (power x e') end.

(** x_0^p_0 * x_1^p_1 * ... *)
Fixpoint monomial (x : list V) (p : list nat) : V :=
  match x, p with
  | a :: x', e :: p' => mul (power a e) (monomial x' p')
  | _, _ => one
  end.

Definition total (p : list nat) : nat := fold_right Nat.add 0 p.

(** The exponents of the polynomial features of [n] variables. *)
Record Exponents (n degree : nat) (interaction_only include_bias include_first_order : bool) (p : list nat) : Prop := {
  ex_length : length p = n;
  ex_degree : total p <= degree;
  ex_bias : total p = 0 -> include_bias = true;
  ex_first : total p = 1 -> include_first_order = true;
  ex_interaction : interaction_only = true -> forall e, In e p -> e <= 1
}.
End Monomials.

(** The name of a monomial: the factors with positive exponents, separated by blanks; exponents
    above one are written after "^" in decimal digits. *)
Fixpoint factors (variables : list string) (p : list nat) : list string :=
  match variables, p with
  | v :: variables', e :: p' =>
      match e with
      | 0 => []
      | 1 => [v]
      | _ => [(v ++ "^" ++ DecimalString.NilEmpty.string_of_uint (Nat.to_uint e))%string]
      end ++ factors variables' p'
  | _, _ => []
  end.
Definition monomial_name (variables : list string) (p : list nat) : string :=
  match factors variables p with
  | [] => "1"%string
  | l => String.concat " " l
  end.

(** The [w] samples of a series that end at position [i]. *)
Definition window_ending {A : Type} (w i : nat) (s : list A) : list A := firstn w (skipn (S i - w) s).
