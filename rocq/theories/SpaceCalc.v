(** The names that operators.py gives the exterior derivative and the codifferential, against vector calculus:
    fields over any commutative ring with commuting derivations (such as smooth functions). *)
From Coq Require Import ZArith String List Bool Ring Lia.
From Verif Require Import SpaceModel.
Import ListNotations.
Local Open Scope string_scope.

Section Calculus.
  Context (F : Type) (zero one : F) (add mul sub : F -> F -> F) (opp : F -> F).
  Context (D : nat -> F -> F).

  (** derivations: additive, product rule, partial derivatives commute *)
  Definition derivations : Prop :=
    ring_theory zero one add mul sub opp (@eq F) /\
    (forall i f g, D i (add f g) = add (D i f) (D i g)) /\
    (forall i f g, D i (mul f g) = add (mul (D i f) g) (mul f (D i g))) /\
    (forall i j f, D i (D j f) = D j (D i f)).

  (** the operators of vector calculus in n dimensions *)
  Definition operator (name : string) (n : nat) (a : list F) : option (list F) :=
    match n, a with
    | 1, [f] => if String.eqb name "derivative" then Some [D 0 f] else None
    | 2, [f] => if String.eqb name "gradient" then Some [D 0 f; D 1 f]
                else if String.eqb name "curl" then Some [D 1 f; opp (D 0 f)] else None
    | 2, [u; v] => if String.eqb name "rot" then Some [sub (D 0 v) (D 1 u)]
                   else if String.eqb name "divergence" then Some [add (D 0 u) (D 1 v)] else None
    | 3, [f] => if String.eqb name "gradient" then Some [D 0 f; D 1 f; D 2 f] else None
    | 3, [u; v; w] => if String.eqb name "curl" then Some [sub (D 1 w) (D 2 v); sub (D 2 u) (D 0 w); sub (D 0 v) (D 1 u)]
                      else if String.eqb name "divergence" then Some [add (D 0 u) (add (D 1 v) (D 2 w))] else None
    | _, _ => None
    end.
  (** k-forms are scalars or vectors *)
  Definition comps (n k : nat) : nat := if Nat.eqb k 0 || Nat.eqb k n then 1 else n.
  Fixpoint dot (a b : list F) : F := match a, b with x :: a, y :: b => add (mul x y) (dot a b) | _, _ => zero end.
  Fixpoint divergence_from (i : nat) (w : list F) : F := match w with [] => zero | x :: r => add (D i x) (divergence_from (S i) r) end.
  Definition signed (s : string) (f : F) : F := if String.eqb s "-" then opp f else f.

  Context (ok : derivations).
  Let RT := proj1 ok.
  Add Ring field_ring : RT.

  Lemma D_zero i : D i zero = zero.
  Proof.
    destruct (proj2 ok) as [A _]. assert (H : D i (add zero zero) = add (D i zero) (D i zero)) by apply A.
    replace (add zero zero) with zero in H by ring. transitivity (sub (add (D i zero) (D i zero)) (D i zero)); [ring|]. rewrite <- H. ring.
  Qed.
  Lemma D_opp i f : D i (opp f) = opp (D i f).
  Proof.
    destruct (proj2 ok) as [A _]. assert (H : D i (add f (opp f)) = add (D i f) (D i (opp f))) by apply A.
    replace (add f (opp f)) with zero in H by ring. rewrite D_zero in H.
    transitivity (sub (add (D i f) (D i (opp f))) (D i f)); [ring|]. rewrite <- H. ring.
  Qed.
  Lemma D_sub i f g : D i (sub f g) = sub (D i f) (D i g).
  Proof. destruct (proj2 ok) as [A _]. replace (sub f g) with (add f (opp g)) by ring. rewrite A, D_opp. ring. Qed.

  Ltac open_list a H := repeat (destruct a as [|? a]; cbn in H; try discriminate H); try clear H.

  Lemma vc_total n k ori ind a : (1 <= n <= 3)%nat -> (k < n)%nat -> (ori = "inner" \/ ori = "outer") -> (ind = "Lambda" \/ ind = "bundle") ->
    List.length a = comps n k ->
    exists name b, d_to_vc ind (Z.of_nat n) (Z.of_nat n) (Z.of_nat k) ori = Some name /\ operator name n a = Some b /\ List.length b = comps n (k + 1).
  Proof.
    intros Hn Hk Ho Hi Ha.
    assert (C : (n = 1 /\ k = 0) \/ (n = 2 /\ (k = 0 \/ k = 1)) \/ (n = 3 /\ (k = 0 \/ k = 1 \/ k = 2))) by lia.
    destruct Hi as [-> | ->]; destruct Ho as [-> | ->];
      (destruct C as [[-> ->]|[[-> [->| ->]]|[-> [->|[->| ->]]]]]); unfold comps in Ha; cbn in Ha; open_list a Ha;
      eexists; eexists; (split; [reflexivity|]); (split; [reflexivity|]); reflexivity.
  Qed.
  Lemma vc_exact n k ori ind A B a b c : (ori = "inner" \/ ori = "outer") ->
    d_to_vc ind (Z.of_nat n) (Z.of_nat n) (Z.of_nat k) ori = Some A -> d_to_vc ind (Z.of_nat n) (Z.of_nat n) (Z.of_nat (k + 1)) ori = Some B ->
    operator A n a = Some b -> operator B n b = Some c -> Forall (fun f => f = zero) c.
  Proof.
    intros Ho HA HB Ha Hb. destruct (proj2 ok) as [Add [_ Com]].
    destruct n as [|[|[|[|n]]]]; try discriminate Ha.
    1: { destruct a as [|? [|? ?]]; cbn in Ha; try discriminate. destruct (String.eqb A _); [|discriminate]. injection Ha as <-.
         unfold d_to_vc in HA, HB. destruct (scalar_or_bundle_text ind); [|discriminate]. destruct k as [|k]; [discriminate|]. exfalso.
         revert HA. cbn. destruct (Z.of_nat (S k) =? 0)%Z eqn:E; [apply Z.eqb_eq in E; lia|discriminate]. }
    - assert (k = 0 \/ k = 1 \/ 2 <= k)%nat as [->|[->|Hk]] by lia.
      + unfold d_to_vc in HA, HB. destruct (scalar_or_bundle_text ind); [|discriminate].
        destruct Ho as [-> | ->]; cbn in HA, HB; injection HA as <-; injection HB as <-; destruct a as [|? [|? [|? ?]]]; try discriminate Ha;
          cbn in Ha; try discriminate Ha; injection Ha as <-; cbn in Hb; injection Hb as <-; constructor; auto;
          rewrite ?D_opp, (Com 1%nat 0%nat); ring.
      + unfold d_to_vc in HB. destruct (scalar_or_bundle_text ind); [|discriminate]. cbn in HB. discriminate.
      + exfalso. unfold d_to_vc in HA. destruct (scalar_or_bundle_text ind); [|discriminate].
        destruct (Z.eqb_spec (Z.of_nat k) 0); [lia|]. destruct (Z.eqb_spec (Z.of_nat k) 1); [lia|].
        cbn in HA. destruct (Z.of_nat k =? 0)%Z, (Z.of_nat k =? 1)%Z; cbn in HA; congruence.
    - assert (k = 0 \/ k = 1 \/ 2 <= k)%nat as [->|[->|Hk]] by lia.
      + unfold d_to_vc in HA, HB. destruct (scalar_or_bundle_text ind); [|discriminate]. cbn in HA, HB. injection HA as <-; injection HB as <-.
        destruct a as [|? [|? [|? [|? ?]]]]; try discriminate Ha. cbn in Ha. injection Ha as <-. cbn in Hb. injection Hb as <-.
        repeat constructor; rewrite ?(Com 1%nat 0%nat), ?(Com 2%nat 0%nat), ?(Com 2%nat 1%nat); ring.
      + unfold d_to_vc in HA, HB. destruct (scalar_or_bundle_text ind); [|discriminate]. cbn in HA, HB. injection HA as <-; injection HB as <-.
        destruct a as [|? [|? [|? [|? ?]]]]; try discriminate Ha. cbn in Ha. injection Ha as <-. cbn in Hb. injection Hb as <-.
        repeat constructor. rewrite !D_sub, ?(Com 1%nat 0%nat), ?(Com 2%nat 0%nat), ?(Com 2%nat 1%nat); ring.
      + exfalso. unfold d_to_vc in HB. destruct (scalar_or_bundle_text ind); [|discriminate].
        cbn in HB. destruct (Z.eqb_spec (Z.of_nat (k + 1)) 0); [lia|]. destruct (Z.eqb_spec (Z.of_nat (k + 1)) 1); [lia|].
        destruct (Z.eqb_spec (Z.of_nat (k + 1)) 2); [lia|]. discriminate.
  Qed.
  Lemma vc_adjoint n k ori ind a b : (1 <= n <= 3)%nat -> (1 <= k <= n)%nat -> (ori = "inner" \/ ori = "outer") -> (ind = "Lambda" \/ ind = "bundle") ->
    List.length a = comps n (k - 1) -> List.length b = comps n k ->
    exists A s B da sb, d_to_vc ind (Z.of_nat n) (Z.of_nat n) (Z.of_nat (k - 1)) ori = Some A /\ d_ast_to_vc ind (Z.of_nat n) (Z.of_nat n) (Z.of_nat k) ori = Some (s, B) /\
      operator A n a = Some da /\ operator B n b = Some sb /\ (s = "+" \/ s = "-") /\
      exists w, List.length w = n /\ sub (dot da b) (signed s (dot a sb)) = divergence_from 0 w.
  Proof.
    intros Hn Hk Ho Hi Ha Hb. destruct (proj2 ok) as [Add [Mul _]].
    assert (C : (n = 1 /\ k = 1) \/ (n = 2 /\ (k = 1 \/ k = 2)) \/ (n = 3 /\ (k = 1 \/ k = 2 \/ k = 3))) by lia.
    destruct Hi as [-> | ->]; destruct Ho as [-> | ->];
      (destruct C as [[-> ->]|[[-> [->| ->]]|[-> [->|[->| ->]]]]]); unfold comps in Ha, Hb; cbn in Ha, Hb; open_list a Ha; open_list b Hb;
      eexists; eexists; eexists; eexists; eexists; (split; [reflexivity|]); (split; [reflexivity|]); (split; [reflexivity|]); (split; [reflexivity|]);
      (split; [auto|]).
    all: cbn [dot signed String.eqb Ascii.eqb Bool.eqb].
    all: match goal with
      | |- exists w, List.length w = 1%nat /\ sub (add (mul (D 0 ?f) ?g) _) _ = _ => exists [mul f g]
      | |- exists w, List.length w = 2%nat /\ sub (add (mul (D 0 ?f) ?u) (add (mul (D 1 ?f) ?v) _)) _ = _ => exists [mul f u; mul f v]
      | |- exists w, List.length w = 2%nat /\ sub (add (mul (D 1 ?f) ?u) (add (mul (opp (D 0 ?f)) ?v) _)) _ = _ => exists [opp (mul f v); mul f u]
      | |- exists w, List.length w = 2%nat /\ sub (add (mul (sub (D 0 ?v) (D 1 ?u)) ?f) _) _ = _ => exists [mul v f; opp (mul u f)]
      | |- exists w, List.length w = 2%nat /\ sub (add (mul (add (D 0 ?u) (D 1 ?v)) ?f) _) _ = _ => exists [mul u f; mul v f]
      | |- exists w, List.length w = 3%nat /\ sub (add (mul (D 0 ?f) ?u) (add (mul (D 1 ?f) ?v) (add (mul (D 2 ?f) ?x) _))) _ = _ => exists [mul f u; mul f v; mul f x]
      | |- exists w, List.length w = 3%nat /\ sub (add (mul (sub (D 1 ?z) (D 2 ?v)) ?p) (add (mul (sub (D 2 ?u) (D 0 ?z)) ?q) (add (mul (sub (D 0 ?v) (D 1 ?u)) ?r) _))) _ = _ =>
          exists [sub (mul v r) (mul z q); sub (mul z p) (mul u r); sub (mul u q) (mul v p)]
      | |- exists w, List.length w = 3%nat /\ sub (add (mul (add (D 0 ?u) (add (D 1 ?v) (D 2 ?x))) ?f) _) _ = _ => exists [mul u f; mul v f; mul x f]
      end; (split; [reflexivity|]); cbn [divergence_from]; rewrite ?D_sub, ?D_opp, ?Mul; ring.
  Qed.
End Calculus.
