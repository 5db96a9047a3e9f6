(** Where the numberings of UnModel do not identify the geometry. *)
From Coq Require Import Arith List Bool ZArith Lia.
From Verif Require Import NdArray Dict GmModel TopologyModel UnModel UnSpec.
Import ListNotations.
Local Open Scope nat_scope.

(** the element maps of a msepy mesh: its own numbering of nodes with degree 1
    (/repo/msehtt/static/mesh/great/config/msepy_.py:196-295) *)
Definition msepy_elements (t : etype) (gm : list (list Z)) : list (nat * elem) :=
  combine (seq 0 (length gm)) (map (fun row => {| e_type := t; e_map := map Z.to_nat row; e_in := true |}) gm).

(** two elements, periodic in x: the two edges y- have the same end vertices *)
Definition ring (e s : nat) : option nat := match s with 0 | 1 => Some (1 - e) | _ => None end.
Lemma ring_merges : exists maps gm g st d d' n n',
  gm_m2n2k0_mesh 2 ring 1 1 = Some maps /\
  gm_m2n2k0_mesh 2 ring 3 1 = Some gm /\
  number_mesh (prog_k0 3 1) (msepy_elements EMsepyQuad maps) st0 = Some (g, st) /\
  (exists row row', nth_error gm 0 = Some row /\ nth_error row d = Some (Z.of_nat n) /\
                    nth_error gm 1 = Some row' /\ nth_error row' d' = Some (Z.of_nat n') /\ n <> n') /\
  (exists v, number_at g 0 d v /\ number_at g 1 d' v).
Proof.
  do 4 eexists. exists 1, 2, 1, 9. split; [vm_compute; reflexivity|]. split; [vm_compute; reflexivity|]. split; [vm_compute; reflexivity|]. split.
  - do 2 eexists. repeat split; try reflexivity. lia.
  - exists 1. split; eexists; (split; [simpl; eauto|reflexivity]).
Qed.

(** shared edges of different degrees: one stored number fills the whole edge *)
Definition quad (m : list nat) := {| e_type := E9; e_map := m; e_in := true |}.
Lemma unequal_degrees_merge : exists es g st e d d' p p' n,
  proper (K0 2 3) es /\ number_mesh (prog_k0 2 3) es st0 = Some (g, st) /\
  position (K0 2 3) es e d p /\ position (K0 2 3) es e d' p' /\ ~ same true p p' /\ number_at g e d n /\ number_at g e d' n.
Proof.
  exists [(0, quad [0; 1; 2; 3]); (1, quad [4; 0; 1; 5])]. do 2 eexists. exists 1, 5, 8. do 2 eexists. exists 1.
  split; [|split; [vm_compute; reflexivity|split; [|split; [|split; [|split]]]]].
  - split; [repeat constructor; simpl; intuition discriminate|]. repeat constructor.
  - eapply (position_at (K0 2 3) _ 1 (quad [4; 0; 1; 5]) [0; 2; 1]); [simpl; auto|reflexivity|reflexivity].
  - eapply (position_at (K0 2 3) _ 1 (quad [4; 0; 1; 5]) [0; 2; 2]); [simpl; auto|reflexivity|reflexivity].
  - intros [H|(_ & a & b & k & k' & Hab & H & H')]; [vm_compute in H; discriminate|]. vm_compute in H, H'. congruence.
  - eexists. split; [simpl; eauto|reflexivity].
  - eexists. split; [simpl; eauto|reflexivity].
Qed.
Lemma unequal_degrees_fail : exists es, proper (K0 3 2) es /\ number_mesh (prog_k0 3 2) es st0 = None.
Proof.
  exists [(0, quad [0; 1; 2; 3]); (1, quad [4; 0; 1; 5])]. split; [|vm_compute; reflexivity].
  split; [repeat constructor; simpl; intuition discriminate|]. repeat constructor.
Qed.

(** hexahedra that traverse a common edge in opposite directions *)
Definition hex (m : list nat) := {| e_type := EHex11; e_map := m; e_in := true |}.
Lemma hex_reversed_edge_split : exists es g st d d' p p' n n',
  proper (H0 2 2 2) es /\ number_mesh (prog_hex 2 2 2 0) es st0 = Some (g, st) /\
  position (H0 2 2 2) es 0 d p /\ position (H0 2 2 2) es 1 d' p' /\ same true p p' /\ number_at g 0 d n /\ number_at g 1 d' n' /\ n <> n'.
Proof.
  exists [(0, hex [0; 1; 2; 3; 4; 5; 6; 7]); (1, hex [1; 0; 8; 9; 10; 11; 12; 13])]. do 2 eexists. exists 1, 1. do 2 eexists. exists 8, 33.
  split; [|split; [vm_compute; reflexivity|split; [|split; [|split; [|split; [|split]]]]]].
  - split; [repeat constructor; simpl; intuition discriminate|]. repeat constructor.
  - eapply (position_at (H0 2 2 2) _ 0 (hex [0; 1; 2; 3; 4; 5; 6; 7]) [0; 1; 0; 0]); [simpl; auto|reflexivity|reflexivity].
  - eapply (position_at (H0 2 2 2) _ 1 (hex [1; 0; 8; 9; 10; 11; 12; 13]) [0; 1; 0; 0]); [simpl; auto|reflexivity|reflexivity].
  - right. split; auto. exists 0, 1, 0, 0. split; [lia|]. split; reflexivity.
  - eexists. split; [simpl; eauto|reflexivity].
  - eexists. split; [simpl; eauto|reflexivity].
  - lia.
Qed.

(** curvilinear triangles have 0-forms and 1-forms but no 2-forms *)
Lemma curved_triangle_no_2form px py es : (exists e x, In (e, x) es /\ e_type x = ECurvTri /\ e_in x = true) ->
  number_mesh (prog_k2 px py) es st0 = None.
Proof.
  generalize st0. induction es as [|[e x] es IH]; intros st (e0 & x0 & Hin & Ht & Hx); [destruct Hin|]. cbn [number_mesh].
  destruct Hin as [[= -> ->]|Hin].
  - rewrite Hx, Ht. reflexivity.
  - destruct (if e_in x then _ else _) as [[row st1]|]; auto. rewrite IH; eauto.
Qed.

(** checking that the degrees fit together *)
Definition pair_okb (turn : bool) (p q : nat * nat * nat) : bool :=
  match p, q with (a, b, n), (a', b', n') =>
    if ((a =? a') && (b =? b')) || (turn && (a =? b') && (b =? a')) then n =? n' else true
  end.
Definition conformingb (turn : bool) (edges : elem -> list (nat * nat * nat)) (es : list (nat * elem)) : bool :=
  let l := flat_map (fun ex => edges (snd ex)) es in forallb (fun p => forallb (pair_okb turn p) l) l.
Lemma conformingb_ok turn edges es : conformingb turn edges es = true -> conforming_edges turn edges es.
Proof.
  intros H e x e' x' a b n a' b' n' Hin Hin' _ _ Hp Hq Hsame. unfold conformingb in H. rewrite forallb_forall in H.
  assert (In (a, b, n) (flat_map (fun ex => edges (snd ex)) es)) as H1 by (apply in_flat_map; exists (e, x); auto).
  assert (In (a', b', n') (flat_map (fun ex => edges (snd ex)) es)) as H2 by (apply in_flat_map; exists (e', x'); auto).
  specialize (H _ H1). rewrite forallb_forall in H. specialize (H _ H2). unfold pair_okb in H.
  destruct (((a =? a') && (b =? b')) || (turn && (a =? b') && (b =? a'))) eqn:E; [now apply Nat.eqb_eq|].
  exfalso. destruct Hsame as [[= -> ->]|[-> [= -> ->]]]; rewrite !Nat.eqb_refl in E; simpl in E; try discriminate.
  now rewrite orb_true_r in E.
Qed.
