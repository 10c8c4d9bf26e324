(** * Proofs for C43. *)

From mathcomp Require Import all_ssreflect all_algebra.
From Verif Require Import StopModel StopSpec.
Import Order.Theory GRing.Theory Num.Theory.
Set Implicit Arguments.
Unset Strict Implicit.
Unset Printing Implicit Defensive.
Local Open Scope ring_scope.

Section Proofs.
Variable R : realDomainType.

Notation run p d s l := (foldl (update p d) s (map Some l)).

(** The state after the losses [h] (delta = 0), as long as training was not stopped. *)
Definition At (p : nat) (h : seq R) (s : stopper R) : Prop :=
  early_stop s = false /\ (counter s < maxn 1 p)%N /\
  (if h is [::] then s = new_stopper R
   else exists a b m, h = a ++ b /\ size b = counter s /\ best_score s = Some (Some m) /\
     m \in a /\ (forall x, x \in a -> m <= x) /\ (forall x, x \in b -> m < x)
     /\ last m a = m).

Lemma stagnates_counter p (a b : seq R) m : m \in a -> (forall x, x \in a -> m <= x) ->
  (forall x, x \in b -> m < x) -> last m a = m -> (0 < p)%N ->
  Stagnates p (a ++ b) -> (p <= size b)%N.
Proof.
move=> Ha Hmin Hb Hl p0 [a' [b' [E [Hs [m' [Ha' [Hmin' Hb']]]]]]].
rewrite leqNgt; apply/negP => Hlt.
have Ea : a' = take (size a') (a ++ b) by rewrite E take_size_cat.
have Eb : b' = drop (size a') (a ++ b) by rewrite E drop_size_cat.
have Sz : (size a' + p = size a + size b)%N by rewrite -Hs -!size_cat E.
have Lt : (size a' < size a)%N by rewrite -(ltn_add2r p) Sz ltn_add2l.
have Hm' : m' \in a.
  by move: Ha'; rewrite Ea take_cat Lt => /mem_take.
have Hin : m \in b'.
  rewrite Eb drop_cat Lt mem_cat; apply/orP; left.
  case/lastP: a Ha Hmin Hl E Ea Eb Sz Lt Hm' => // a z _ _.
  rewrite last_rcons => -> _ _ _ _; rewrite size_rcons ltnS => Lt _.
  by rewrite drop_rcons // mem_rcons inE eqxx.
by have := lt_le_trans (Hb' m Hin) (Hmin m' Hm'); rewrite ltxx.
Qed.

Lemma maxn1_gt0 p : (0 < maxn 1 p)%N. Proof. by rewrite leq_max. Qed.

Lemma At_not p h s : At p h s -> ~ Stagnates (maxn 1 p) h.
Proof.
case: h => [|x h] [_ [Hc]].
- by move=> _ [[|? ?] [b [E [Hs [m [Hm _]]]]]].
- move=> [a [b [m [-> [Hs [_ [Ha [Hmin [Hb Hl]]]]]]]]] HS.
  have := stagnates_counter Ha Hmin Hb Hl (maxn1_gt0 p) HS.
  by rewrite Hs leqNgt Hc.
Qed.

Lemma step_At p h s x : At p h s ->
  let s' := update p 0 s (Some x) in
  (early_stop s' = true /\ Stagnates (maxn 1 p) (rcons h x)) \/
  (early_stop s' = false /\ At p (rcons h x) s').
Proof.
case: h => [|y h] [H1 [Hc]].
- move=> ->; right; split=> //; split=> //; split; first exact: maxn1_gt0.
  exists [:: x], [::], x; do !split=> //; first by rewrite inE.
  by move=> z; rewrite inE => /eqP ->.
- move=> [a [b [m [-> [Hs [Hbest [Ha [Hmin [Hb Hl]]]]]]]]].
  rewrite /update Hbest /= addr0; case: (ltP m x) => Hx /=.
  + rewrite H1 orbF; case: (leqP p (counter s).+1) => Hp; [left|right]; split=> //.
    * exists a, (rcons b x); rewrite rcons_cat; split=> //; split.
        by rewrite size_rcons Hs; apply/eqP; rewrite eqn_leq Hc geq_max /=.
      exists m; split=> //; split=> // z; rewrite mem_rcons inE => /orP[/eqP ->|] //; exact: Hb.
    * split=> //=; split; first by rewrite leq_max Hp orbT.
      have E : rcons (a ++ b) x = a ++ rcons b x by rewrite rcons_cat.
      case Er: (rcons (a ++ b) x) => [|z l]; first by move: Er => /(congr1 size); rewrite size_rcons.
      rewrite -Er; exists a, (rcons b x), m; do !split=> //; first by rewrite size_rcons Hs.
      by move=> w; rewrite mem_rcons inE => /orP[/eqP ->|] //; exact: Hb.
  + right; split=> //; split=> //=; split; first exact: maxn1_gt0.
    case Er: (rcons (a ++ b) x) => [|z l]; first by move: Er => /(congr1 size); rewrite size_rcons.
    rewrite -Er; exists (rcons (a ++ b) x), [::], x; rewrite cats0; do !split=> //.
    * by rewrite mem_rcons inE eqxx.
    * move=> w; rewrite mem_rcons inE mem_cat => /orP[/eqP ->|/orP[Hw|Hw]] //.
      - exact: le_trans Hx (Hmin w Hw).
      - exact: le_trans Hx (ltW (Hb w Hw)).
    * by rewrite last_rcons.
Qed.

Lemma epochs_first p h s l : At p h s ->
  let k := epochs p 0 s (map Some l) in
  (k <= size l)%N /\ (forall k', (k' < k)%N -> ~ Stagnates (maxn 1 p) (h ++ take k' l)) /\
  (Stagnates (maxn 1 p) (h ++ take k l) \/ k = size l).
Proof.
elim: l h s => [|x l IH] h s HA /=; first by do !split=> //; right.
case: (step_At x HA) => -[-> HS].
- split=> //; split; last by left; rewrite /= take0 cats1.
  by case=> // _; rewrite cats0; apply: At_not HA.
- have [K1 [K2 K3]] := IH _ _ HS; split=> //; split.
  + case=> [|k'] Hk; first by rewrite cats0; apply: At_not HA.
    by rewrite /= -cat_rcons; apply: K2.
  + by rewrite -cat_rcons; case: K3 => [?|->]; [left|right].
Qed.

Lemma train_first p (l : seq R) : FirstTime (Stagnates (maxn 1 p)) l (train p 0 (map Some l)).
Proof.
have HA : At p [::] (new_stopper R) by split=> //; split=> //; exact: maxn1_gt0.
exact: epochs_first l HA.
Qed.

(** ** delta > 0 *)

Lemma slow_epochs p (d : R) s x l : early_stop s = false ->
  (exists y, best_score s = Some (Some y) /\ x <= y + d) \/ best_score s = None ->
  SlowGrowth d (x :: l) -> epochs p d s (map Some (x :: l)) = size (x :: l).
Proof.
elim: l s x => [|y l IH] s x He Hb HS.
- rewrite /= /update; case: Hb => [[m [-> Hm]]|->] /=; last by rewrite He.
  by rewrite ltNge Hm /= He.
- case: HS => Hxy HS.
  have [s' [Es [Eb Ee]]] : exists s', update p d s (Some x) = s' /\ best_score s' = Some (Some x) /\ early_stop s' = false.
    rewrite /update; case: Hb => [[m [-> Hm]]|->]; last by eexists.
    by rewrite /gt_plus ltNge Hm /=; eexists.
  rewrite [LHS]/= Es Ee; congr _.+1.
  by apply: IH => //; left; exists x.
Qed.

Lemma slow_never p (d : R) (l : seq R) : SlowGrowth d l -> train p d (map Some l) = size l.
Proof. by case: l => // x l H; apply: slow_epochs => //; right. Qed.

(** ** NaN *)

Lemma nan_epochs p (d : R) s n : early_stop s = false -> epochs p d s (nseq n (None : loss R)) = n.
Proof.
elim: n s => //= n IH s He.
have E : early_stop (update p d s None) = false by rewrite /update; case: (best_score s).
by rewrite E IH.
Qed.

Lemma nan_never p (d : R) s (l : seq R) n : early_stop s = false -> epochs p d s (map Some l) = size l ->
  (l = [::] \/ early_stop (run p d s l) = false) ->
  epochs p d s (map Some l ++ nseq n None) = (size l + n)%N.
Proof.
elim: l s => [|x l IH] s He; first by move=> _ _; apply: nan_epochs.
rewrite /=; case: ifP => Hs.
- move=> _ [//|H]; exfalso.
  have : early_stop (run p d (update p d s (Some x)) l).
    elim: l (update p d s (Some x)) Hs {IH H} => //= y l IH s' Hs; apply: IH.
    rewrite /update; case: (best_score s') => // m; case: ifP => //=; rewrite Hs ?orbT //.
  by rewrite H.
- move=> [Hk] [//|H]; rewrite IH //; by right.
Qed.

End Proofs.
