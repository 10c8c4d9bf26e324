(** * The [field] tactic of the standard library over mathcomp fields.
    Tactic support only: nothing here models code. *)

From mathcomp Require Import all_ssreflect all_algebra.
Require Export Field.
Import GRing.Theory Num.Theory.
Local Open Scope ring_scope.

Section FieldTheory.
Variable R : fieldType.
Definition ft_carrier := GRing.Field.sort R.
Definition ft_add : ft_carrier -> ft_carrier -> ft_carrier := +%R.
Definition ft_mul : ft_carrier -> ft_carrier -> ft_carrier := *%R.
Definition ft_opp : ft_carrier -> ft_carrier := -%R.
Definition ft_sub : ft_carrier -> ft_carrier -> ft_carrier := fun a b => a - b.
Definition ft_zero : ft_carrier := 0.
Definition ft_one : ft_carrier := 1.
Definition ft_inv : ft_carrier -> ft_carrier := fun x => (x : R)^-1.
Definition ft_div : ft_carrier -> ft_carrier -> ft_carrier := fun x y => (x : R) / y.

Lemma ft_theory :
  @field_theory ft_carrier ft_zero ft_one ft_add ft_mul ft_sub ft_opp ft_div ft_inv eq.
Proof.
split=> //.
- split; rewrite /ft_carrier /ft_zero /ft_one /ft_add /ft_mul /ft_sub /ft_opp /= => *;
  rewrite ?add0r ?mul1r ?addrN // ?addrA ?mulrA ?mulrDl //; by rewrite addrC || rewrite mulrC.
- rewrite /ft_one /ft_zero; apply/eqP; exact: oner_neq0.
- by move=> p /eqP H; rewrite /ft_mul /ft_inv mulVf.
Qed.
End FieldTheory.

Ltac to_field R :=
  rewrite ?(expr2, mulrS, mulr0n, addr0);
  match goal with |- @eq _ ?a ?b => change (@eq (ft_carrier R) a b) end;
  repeat match goal with
  | |- context [@GRing.add _ ?a (@GRing.opp _ ?b)] =>
      change (@GRing.add _ a (@GRing.opp _ b)) with (ft_sub R a b)
  | |- context [@GRing.add _ ?a ?b] => change (@GRing.add _ a b) with (ft_add R a b)
  | |- context [@GRing.mul _ ?a ?b] => change (@GRing.mul _ a b) with (ft_mul R a b)
  | |- context [@GRing.opp _ ?a] => change (@GRing.opp _ a) with (ft_opp R a)
  | |- context [@GRing.inv _ ?a] => change (@GRing.inv _ a) with (ft_inv R a)
  | |- context [@GRing.zero _] => change (@GRing.zero _) with (ft_zero R)
  | |- context [@GRing.one _] => change (@GRing.one _) with (ft_one R)
  end.

Ltac abs_fatoms t :=
  lazymatch t with
  | ft_add _ ?a ?b => abs_fatoms a; abs_fatoms b
  | ft_mul _ ?a ?b => abs_fatoms a; abs_fatoms b
  | ft_sub _ ?a ?b => abs_fatoms a; abs_fatoms b
  | ft_opp _ ?a => abs_fatoms a
  | ft_inv _ ?a => abs_fatoms a
  | ft_zero _ => idtac
  | ft_one _ => idtac
  | _ =>
    tryif is_var t then idtac else
    first
    [ match goal with
      | H := ?b |- _ => unify b t; change t with H
      end
    | let z := fresh "atom" in set (z := t) ]
  end.

(** Side conditions: a conjunction of [<>]; numerals in a characteristic zero field are
    solved, the others are looked up in the context. *)
Ltac ft_unfold := unfold ft_zero, ft_one, ft_add, ft_mul, ft_sub, ft_opp, ft_inv, ft_div, ft_carrier in *.

Ltac ft_side := ft_unfold; repeat split;
  first [ by apply/eqP
        | apply/eqP; apply: lt0r_neq0; repeat first [exact: ltr01 | apply: addr_gt0 | apply: mulr_gt0 | rewrite invr_gt0 | by []]; by []
        | idtac ].

(** In a section: [Add Field RField : (ft_theory R).] then [mfield R]. *)
Ltac mfield R :=
  to_field R;
  match goal with |- @eq _ ?a ?b => abs_fatoms a; abs_fatoms b end;
  field; ft_side.
