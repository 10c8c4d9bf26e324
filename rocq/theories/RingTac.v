(** * The [ring] tactic of the standard library over mathcomp commutative rings.
    Tactic support only: nothing here models code. *)

From mathcomp Require Import all_ssreflect all_algebra.
Require Export Ring.
Import GRing.Theory.
Local Open Scope ring_scope.

Section RingTheory.
Variable R : comRingType.
Definition rt_carrier := GRing.ComRing.sort R.
Definition rt_add : rt_carrier -> rt_carrier -> rt_carrier := +%R.
Definition rt_mul : rt_carrier -> rt_carrier -> rt_carrier := *%R.
Definition rt_opp : rt_carrier -> rt_carrier := -%R.
Definition rt_sub : rt_carrier -> rt_carrier -> rt_carrier := fun a b => a - b.
Definition rt_zero : rt_carrier := 0.
Definition rt_one : rt_carrier := 1.

Lemma rt_theory :
  @ring_theory rt_carrier rt_zero rt_one rt_add rt_mul rt_sub rt_opp eq.
Proof.
split; rewrite /rt_carrier /rt_zero /rt_one /rt_add /rt_mul /rt_sub /rt_opp /= => *;
rewrite ?add0r ?mul1r ?addrN // ?addrA ?mulrA ?mulrDl //; by rewrite addrC || rewrite mulrC.
Qed.
End RingTheory.

Ltac to_ring R :=
  rewrite ?expr2 ?mulr2n ?mulr1n;
  match goal with |- @eq _ ?a ?b => change (@eq (rt_carrier R) a b) end;
  repeat match goal with
  | |- context [@GRing.add _ ?a (@GRing.opp _ ?b)] =>
      change (@GRing.add _ a (@GRing.opp _ b)) with (rt_sub R a b)
  | |- context [@GRing.add _ ?a ?b] => change (@GRing.add _ a b) with (rt_add R a b)
  | |- context [@GRing.mul _ ?a ?b] => change (@GRing.mul _ a b) with (rt_mul R a b)
  | |- context [@GRing.opp _ ?a] => change (@GRing.opp _ a) with (rt_opp R a)
  | |- context [@GRing.zero _] => change (@GRing.zero _) with (rt_zero R)
  | |- context [@GRing.one _] => change (@GRing.one _) with (rt_one R)
  end.

Ltac abs_atoms t :=
  lazymatch t with
  | rt_add _ ?a ?b => abs_atoms a; abs_atoms b
  | rt_mul _ ?a ?b => abs_atoms a; abs_atoms b
  | rt_sub _ ?a ?b => abs_atoms a; abs_atoms b
  | rt_opp _ ?a => abs_atoms a
  | rt_zero _ => idtac
  | rt_one _ => idtac
  | _ =>
    tryif is_var t then idtac else
    first
    [ match goal with
      | H := ?b |- _ => unify b t; change t with H
      end
    | let z := fresh "atom" in set (z := t) ]
  end.

Ltac mring R :=
  to_ring R;
  match goal with |- @eq _ ?a ?b => abs_atoms a; abs_atoms b end;
  repeat match goal with H := _ |- _ => clearbody H end;
  ring.
