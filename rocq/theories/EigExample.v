(** * A concrete case for C48. *)

From mathcomp Require Import all_ssreflect all_algebra.
From Verif Require Import RingTac LinModel KernModel KernSpec KernProofs KernExample EigModel EigSpec EigProofs.
Import GRing.Theory Num.Theory.
Set Implicit Arguments.
Unset Strict Implicit.
Unset Printing Implicit Defensive.
Local Open Scope ring_scope.

Section Example.
Variable R : rcfType.

(** Solvers that know one candidate and check it. *)
Definition checking_backend (e : 'rV[R]_2) (V : 'M[R]_2) : backend R :=
  fun s k n =>
    match k, n with
    | 2%N, 2%N => fun A : 'M[R]_2 =>
        match s with
        | Eigh => if (from_lower A *m V == V *m diag_mx e) && (V^T *m V == 1%:M) then Some (e, V) else None
        | _ => if A *m V == V *m diag_mx e then Some (e, V) else None
        end
    | _, _ => fun _ => None
    end.

Lemma checking_backend_ok e V : ScipySolvers (checking_backend e V).
Proof.
split; [|split; [|split]].
- move=> n A e' V'; case: n A e' V' => [|[|[|n]]] A e' V' //=.
  by case: andP => // [[/eqP H1 /eqP H2]] [<- <-].
- by move=> k n A e' V'; case: k e' V' => [|[|[|k]]] e' V'; case: n A V' => [|[|[|n]]] A V' //=;
    case: eqP => // H [<- <-].
- by move=> k n A e' V'; case: k e' V' => [|[|[|k]]] e' V'; case: n A V' => [|[|[|n]]] A V' //=;
    case: eqP => // H [<- <-].
- by move=> k n A e' V'; case: k e' V' => [|[|[|k]]] e' V'; case: n A V' => [|[|[|n]]] A V' //=;
    case: eqP => // H [<- <-].
Qed.

(** Weights of a nearest neighbour graph: the first point is linked to the second only. *)
Definition ex_K : 'M[R]_2 := mx2 1 1 0 1.
Definition ex_cfg : dmap_cfg R := DmapCfg true false id true false.
Definition ex_P : 'M[R]_2 := stochastic_kernel ex_K.

Lemma ex_rows : PositiveRows ex_K.
Proof.
by move=> i; rewrite sum2; case: (ord2 i) => ->; rewrite !mxE /= ?add0r ?addr_gt0 ?ltr01.
Qed.

Lemma ex_entry i j : ex_P i j = ex_K i j / \sum_k ex_K i k.
Proof. exact: stochastic_markov ex_rows i j. Qed.

Lemma ex_P00 : ex_P 0 0 = 2%:R^-1. Proof. by rewrite ex_entry sum2 !mxE /= mul1r. Qed.
Lemma ex_P01 : ex_P 0 1 = 2%:R^-1. Proof. by rewrite ex_entry sum2 !mxE /= mul1r. Qed.
Lemma ex_P10 : ex_P 1 0 = 0. Proof. by rewrite ex_entry !mxE /= mul0r. Qed.
Lemma ex_P11 : ex_P 1 1 = 1. Proof. by rewrite ex_entry sum2 !mxE /= add0r divr1. Qed.

Lemma ex_not_symmetric : ~ Symmetric ex_P.
Proof. by move=> /(_ 0 1) /eqP; rewrite ex_P01 ex_P10 invr_eq0 pnatr_eq0. Qed.

Definition ex_e : 'rV[R]_2 := rv2 2%:R^-1 1.

Lemma ex_compute nrm :
  compute_kernel_eigenpairs (checking_backend ex_e 1%:M) (dmap_flags ex_cfg) ex_P 2 nrm true =
  Some (ex_e, 1%:M).
Proof.
have HL : from_lower ex_P *m 1%:M == 1%:M *m diag_mx ex_e.
  rewrite mulmx1 mul1mx; apply/eqP/matrixP => i j; rewrite [LHS]mxE [RHS]mxE.
  case: (ord2 i) => ->; case: (ord2 j) => ->.
  - by rewrite leqnn eqxx ex_P00 mulr1n mxE.
  - by rewrite /= ex_P10 mulr0n.
  - by rewrite /= ex_P10 mulr0n.
  - by rewrite leqnn eqxx ex_P11 mulr1n mxE.
have H1 : ((1%:M : 'M[R]_2)^T *m 1%:M == 1%:M) by rewrite mulmx1 trmx1.
rewrite /compute_kernel_eigenpairs /= HL H1 /=.
by congr (Some (_, _)); case: nrm => //; apply: scale_one; apply/eqP.
Qed.

End Example.
