(** C66: cochains at time instants; saving and reading them.  Only statements and references to proofs; vocabulary in
    CochainSpec.v; model in CochainModel.v.  Times are integers (multiples of 1e-8); None stands for an exception. *)
From Coq Require Import List ZArith Reals Bool Arith Lia Lra Sorted.
From Verif Require Import MappingModel SignatureModel SignatureThms CochainModel CochainSpec CochainThms CochainFiles.
Import ListNotations.


(** * msehtt: the store *)

Theorem cochain_newest {C : Type} (os : list (op C)) (s : store C) :
  careful os empty_store -> run os empty_store = Some s -> newest_right s.
Proof. exact (store_newest os s). Qed.
Print Assumptions cochain_newest.


Theorem cochain_calls_succeed {C : Type} (os : list (op C)) :
  careful os empty_store -> Forall accepted os -> exists s, run os empty_store = Some s.
Proof. exact (store_total os). Qed.
Print Assumptions cochain_calls_succeed.


Theorem cochain_last_set {C : Type} (os : list (op C)) (s : store C) t c :
  run os empty_store = Some s -> get_cochain (Some t) s = Some c -> last_set os t = Some c.
Proof. exact (store_sound os s t c). Qed.
Print Assumptions cochain_last_set.


Theorem cochain_bounded {C : Type} n (os : list (op C)) (s : store C) :
  (2 <= n)%nat -> Forall (within n) os -> run os empty_store = Some s -> (length (tcd s) <= n)%nat.
Proof. exact (store_bounded n os s). Qed.
Print Assumptions cochain_bounded.


Theorem cochain_set_effect {C : Type} (l : option nat) (t : Z) (c : C) (s : store C) : NoDup (times_of s) -> accepted (Set_ l t c) -> exists s', set_cochain l t c s = Some s' /\ NoDup (times_of s') /\
  get_cochain (Some t) s' = Some c /\
  forall u, u <> t -> match l with
     | Some k => if (k <=? length (tcd s))%nat then (among_largest (k - 1) (times_of s) u -> get_cochain (Some u) s' = get_cochain (Some u) s) /\ (~ among_largest (k - 1) (times_of s) u -> get_cochain (Some u) s' = None)
                 else get_cochain (Some u) s' = get_cochain (Some u) s
     | None => get_cochain (Some u) s' = get_cochain (Some u) s end.
Proof. intros O A. destruct (set_spec l t c s O A) as (s' & E & N & _ & G & H & _). exists s'. auto. Qed.
Print Assumptions cochain_set_effect.


Theorem cochain_increasing_times {C : Type} k (l : list (Z * C)) :
  (2 <= k)%nat -> StronglySorted Z.lt (map fst l) ->
  exists s, run (map (fun tc => Set_ (Some k) (fst tc) (snd tc)) l) empty_store = Some s /\ tcd s = last_ones k l.
Proof. exact (sets_increasing k l). Qed.
Print Assumptions cochain_increasing_times.


(** after clean(t=newest) the newest cochain cannot be had any more *)
Theorem cochain_clean_at_refuted {C : Type} (a b : C) :
  exists s, run [Set_ None 1 a; Set_ None 2 b; CleanAt 2] empty_store = Some s /\ get_cochain None s = None /\ get_cochain (Some 1%Z) s = Some a /\
  clean_newest s = None /\ exists s', set_cochain None 1 b s = Some s' /\ get_cochain None s' = None.
Proof. exact (clean_at_wrong a b). Qed.
Print Assumptions cochain_clean_at_refuted.


(** setting the same time again takes the cochain of another time away *)
Theorem cochain_overwrite_refuted {C : Type} (a b c d : C) :
  exists s, run [Set_ (Some 3%nat) 1 a; Set_ (Some 3%nat) 2 b; Set_ (Some 3%nat) 3 c; Set_ (Some 3%nat) 3 d] empty_store = Some s /\ get_cochain (Some 1%Z) s = None /\ length (tcd s) = 2%nat.
Proof. exact (overwrite_wrong a b c d). Qed.
Print Assumptions cochain_overwrite_refuted.


(** * msepy: the store *)

Theorem py_cochain_right {C : Type} (os : list (py_op C)) (s : store C) :
  py_run os empty_store = Some s -> newest_right s /\ forall t c, get_cochain (Some t) s = Some c -> py_last_set os t = Some c.
Proof. exact (py_store_right os s). Qed.
Print Assumptions py_cochain_right.


Theorem py_cochain_bounded {C : Type} k (l : list (Z * C)) (s : store C) :
  (2 <= k)%nat -> py_run (map (fun tc => PySet (Some k) (fst tc) (snd tc)) l) empty_store = Some s -> (length (tcd s) <= 2 * k + 1)%nat.
Proof. exact (py_sets_bounded k l s). Qed.
Print Assumptions py_cochain_bounded.


(** * interpolation *)

Theorem interpolation_on_chord s n t lo hi : NoDup (times_of s) -> uniform s n -> In lo (times_of s) -> In hi (times_of s) -> (lo < hi)%Z -> (lo <= t <= hi)%Z ->
  exists a b u v r, consecutive (times_of s) a b /\ (a <= t <= b)%Z /\ get_cochain (Some a) s = Some u /\ get_cochain (Some b) s = Some v /\ interpolate t s = Some r /\ on_chord a b t u v r.
Proof. exact (interpolation_right s n t lo hi). Qed.
Print Assumptions interpolation_on_chord.

Theorem interpolation_at_stored s n t c : NoDup (times_of s) -> uniform s n -> (2 <= length (tcd s))%nat -> get_cochain (Some t) s = Some c -> interpolate t s = Some c.
Proof. exact (interpolation_stored s n t c). Qed.
Print Assumptions interpolation_at_stored.

Theorem interpolation_outside_raises s t : (forall u, In u (times_of s) -> (t < u)%Z) \/ (forall u, In u (times_of s) -> (u < t)%Z) -> interpolate t s = None.
Proof. exact (interpolation_outside s t). Qed.
Print Assumptions interpolation_outside_raises.

Theorem py_interpolation_first_chord s n t lo hi : NoDup (times_of s) -> uniform s n -> In lo (times_of s) -> In hi (times_of s) -> (lo <= t <= hi)%Z -> ~ In t (times_of s) ->
  exists a b u v r, consecutive (times_of s) a b /\ (forall w, In w (times_of s) -> (a <= w)%Z) /\ get_cochain (Some a) s = Some u /\ get_cochain (Some b) s = Some v /\ py_interpolate t s = Some r /\ on_chord a b t u v r.
Proof. exact (py_interpolation_first s n t lo hi). Qed.
Print Assumptions py_interpolation_first_chord.

(** three times: the second chord is not used *)
Theorem py_interpolation_refuted : exists s : store (list R), py_run [PySet (Some 10%nat) 0 [0%R]; PySet (Some 10%nat) 2 [4%R]; PySet (Some 10%nat) 4 [16%R]] empty_store = Some s /\ py_interpolate 3 s = Some [6%R] /\ interpolate 3 s = Some [10%R].
Proof. exact (py_interpolation_wrong). Qed.
Print Assumptions py_interpolation_refuted.

(** * signatures of elements *)
Local Open Scope R_scope.

Theorem signature_2d_close e phi e' psi : signature2 e phi = signature2 e' psi -> e = e' /\ forall q, In q points2 -> Rabs (fst (phi q) - fst (psi q)) <= / 10 ^ 4 /\ Rabs (snd (phi q) - snd (psi q)) <= / 10 ^ 4.
Proof. exact (signature2_close e phi e' psi). Qed.
Print Assumptions signature_2d_close.

Theorem signature_3d_close e phi e' psi : signature3 e phi = signature3 e' psi -> e = e' /\ forall q, In q points3 ->
  Rabs (fst (fst (phi q)) - fst (fst (psi q))) <= / 10 ^ 3 /\ Rabs (snd (fst (phi q)) - snd (fst (psi q))) <= / 10 ^ 3 /\ Rabs (snd (phi q) - snd (psi q)) <= / 10 ^ 3.
Proof. exact (signature3_close e phi e' psi). Qed.
Print Assumptions signature_3d_close.

(** equal up to any tolerance, and still different signatures *)
Theorem signature_noise_refuted eps : 0 < eps -> exists phi psi : R * R -> R * R, (forall q, Rabs (fst (phi q) - fst (psi q)) <= eps /\ snd (phi q) = snd (psi q)) /\ forall e, signature2 e phi <> signature2 e psi.
Proof. exact (signature_noise eps). Qed.
Print Assumptions signature_noise_refuted.

(** disjoint elements with the same signature *)
Theorem signature_collision_refuted : exists phi psi : R * R -> R * R, (forall e, signature2 e phi = signature2 e psi) /\
  forall p q, -1 < fst p < 1 -> -1 < fst q < 1 -> phi p <> psi q.
Proof. exact (signature_collision). Qed.
Print Assumptions signature_collision_refuted.

Local Close Scope R_scope.
(** * files *)

Theorem saved_times_and_values {Sg V : Type} (sd : forall a b : Sg, {a = b} + {a <> b}) (what : option nat) (ranks : list (rank_mesh Sg * store (list (nat * V)))) :
  consistent ranks -> NoDup (map snd (elements ranks)) -> what <> Some 0%nat ->
  exists f ts, saveto sd what ranks = Some f /\ map fst (f_cochain f) = ts /\ f_signatures f = map (fun es => (snd es, fst es)) (elements ranks) /\
    (forall m s, In (m, s) ranks -> NoDup ts /\ forall u, In u ts <-> match what with None => In u (times_of s) | Some n => among_largest n (times_of s) u end) /\
    forall t tot, In (t, tot) (f_cochain f) -> map fst tot = map fst (elements ranks) /\ forall e v, In (e, v) tot -> value_at ranks t e v.
Proof. exact (saveto_spec sd what ranks). Qed.
Print Assumptions saved_times_and_values.


Theorem save_read_round_trip {Sg V : Type} (sd : forall a b : Sg, {a = b} + {a <> b}) (what : option nat) (ranks : list (rank_mesh Sg * store (list (nat * V)))) limit nothing (m' : rank_mesh Sg) (s' : store (list (nat * V))) :
  consistent ranks -> NoDup (map snd (elements ranks)) -> what <> Some 0%nat ->
  whole m' -> NoDup (gm m') -> (forall e sg, In (e, sg) (composition m') -> In sg (map snd (elements ranks))) ->
  match limit with None => True | Some k => (2 <= k)%nat /\ forall m s, In (m, s) ranks -> (length (tcd s') + length (tcd s) <= k)%nat end ->
  exists f s'', saveto sd what ranks = Some f /\ read sd limit nothing m' f s' = Some s'' /\
    forall m s t, In (m, s) ranks ->
      (match what with None => In t (times_of s) | Some n => among_largest n (times_of s) t end ->
        exists c, get_cochain (Some t) s'' = Some c /\ map fst c = gm m' /\
          forall e v, In (e, v) c -> exists sg e0, In (e, sg) (composition m') /\ In (e0, sg) (elements ranks) /\ value_at ranks t e0 v) /\
      (~ match what with None => In t (times_of s) | Some n => among_largest n (times_of s) t end -> get_cochain (Some t) s'' = get_cochain (Some t) s').
Proof. exact (round_trip sd what ranks limit nothing m' s'). Qed.
Print Assumptions save_read_round_trip.


Theorem read_missing_raises {Sg V : Type} (sd : forall a b : Sg, {a = b} + {a <> b}) limit nothing (m : rank_mesh Sg) (f : file Sg V) s e sg :
  f_cochain f <> [] -> whole m -> NoDup (gm m) -> In (e, sg) (composition m) -> ~ In sg (map fst (f_signatures f)) -> read sd limit nothing m f s = None.
Proof. exact (read_missing sd limit nothing m f s e sg). Qed.
Print Assumptions read_missing_raises.


Theorem read_cache_reads {Sg V : Type} (sd : forall a b : Sg, {a = b} + {a <> b}) limit nothing (m : rank_mesh Sg) (f : file Sg V) s :
  whole m -> NoDup (gm m) -> NoDup (map snd (composition m)) -> read_cache sd limit nothing m f s = read sd limit nothing m f s.
Proof. exact (read_cache_same sd limit nothing m f s). Qed.
Print Assumptions read_cache_reads.


(** two elements with the same signature *)
Theorem read_coincident_refuted {Sg V : Type} (sd : forall a b : Sg, {a = b} + {a <> b}) (sg : Sg) (a b : V) t :
  exists f s, saveto sd None [(RankMesh [(0%nat, sg); (1%nat, sg)] [0%nat; 1%nat], Store [(t, [(0%nat, a); (1%nat, b)])] (Some t))] = Some f /\
  read sd None (fun _ => false) (RankMesh [(0%nat, sg); (1%nat, sg)] [0%nat; 1%nat]) f empty_store = Some s /\ get_cochain (Some t) s = Some [(0%nat, b); (1%nat, b)] /\
  read_cache sd None (fun _ => false) (RankMesh [(0%nat, sg); (1%nat, sg)] [0%nat; 1%nat]) f empty_store = None.
Proof. exact (coincident_wrong sd sg a b t). Qed.
Print Assumptions read_coincident_refuted.


(** a form on a part of the mesh can be saved but not read *)
Theorem read_part_refuted {Sg V : Type} (sd : forall a b : Sg, {a = b} + {a <> b}) (sg : Sg) (a : V) :
  exists f s, let m := RankMesh [(0%nat, sg)] [0%nat; 1%nat] in
  receive (fun e => Nat.eqb e 1) m [(0%nat, a)] = Some [(0%nat, a)] /\ saveto sd None [(m, Store [(0%Z, [(0%nat, a)])] (Some 0%Z))] = Some f /\
  read sd None (fun e => Nat.eqb e 1) m f s = None.
Proof. exact (part_wrong sd sg a). Qed.
Print Assumptions read_part_refuted.


(** * Examples *)
(** a history with automatic cleaning and a careful clean(t=...) *)
Example cochain_case : let os := [Set_ (Some 3%nat) 1 10%nat; Set_ (Some 3%nat) 5 20%nat; Set_ (Some 3%nat) 2 30%nat; CleanAt 1; Set_ (Some 3%nat) 4 40%nat; Set_ (Some 3%nat) 3 50%nat] in
  careful os empty_store /\ Forall accepted os /\ Forall (within 3) os /\ exists s, run os empty_store = Some s /\ times s = [3; 4; 5]%Z /\ newest s = Some 5%Z /\ get_cochain (Some 4%Z) s = Some 40%nat.
Proof. cbv zeta. split; [cbn; intuition discriminate |]. split; [repeat constructor |]. split; [repeat constructor |]. eexists. split; [reflexivity |]. repeat split. Qed.
Example cochain_increasing_case : StronglySorted Z.lt (map fst [(1, 10%nat); (3, 20%nat); (4, 30%nat); (9, 40%nat)]%Z) /\ last_ones 3 [(1, 10%nat); (3, 20%nat); (4, 30%nat); (9, 40%nat)]%Z = [(3, 20%nat); (4, 30%nat); (9, 40%nat)]%Z.
Proof. split; [repeat constructor; lia | reflexivity]. Qed.
Example interpolation_case : let s := Store [(4, [16%R]); (0, [0%R]); (2, [4%R])]%Z (Some 4%Z) in NoDup (times_of s) /\ uniform s 1 /\ consecutive (times_of s) 2 4 /\ interpolate 3 s = Some [10%R].
Proof.
  cbv zeta. split; [repeat constructor; cbn; intuition discriminate |]. split; [intros t c [E | [E | [E | []]]]; injection E as <- <-; reflexivity |]. split; [repeat split; cbn; try tauto; try lia |].
  unfold interpolate, between. cbn. unfold vplus, vscale, vminus, fraction; cbn. do 2 f_equal. lra.
Qed.
(** two ranks, read on one rank with other numbers *)
Example round_trip_case :
  let ranks := [(RankMesh [(0, 10); (1, 11)]%nat [0; 1]%nat, Store [(7%Z, [(0, true); (1, false)]%nat)] (Some 7%Z)); (RankMesh [(2, 12)]%nat [2]%nat, Store [(7%Z, [(2, true)]%nat)] (Some 7%Z))] in
  let m := RankMesh [(5, 12); (6, 11); (7, 10)]%nat [5; 6; 7]%nat in
  consistent ranks /\ NoDup (map snd (elements ranks)) /\ whole m /\ NoDup (gm m) /\
  exists f s, saveto Nat.eq_dec None ranks = Some f /\ read Nat.eq_dec (Some 3%nat) (fun _ => false) m f empty_store = Some s /\ get_cochain (Some 7%Z) s = Some [(5, true); (6, false); (7, true)]%nat.
Proof.
  cbv zeta. split.
  - split; [discriminate |]. split; [repeat constructor; cbn; intuition discriminate |]. split.
    + intros m s [E | [E | []]]; injection E as <- <-; (split; [| apply NoDup_cons; [cbn; tauto | apply NoDup_nil]]); intros t c G; cbn [get_cochain get tcd] in G; destruct (Z.eq_dec 7 t); try discriminate; injection G as <-; reflexivity.
    + intros m s m' s' [E | [E | []]] [E' | [E' | []]]; injection E as <- <-; injection E' as <- <-; reflexivity.
  - split; [repeat constructor; cbn; intuition discriminate |]. split; [reflexivity |]. split; [repeat constructor; cbn; intuition discriminate |]. eexists. eexists. split; [reflexivity |]. split; reflexivity.
Qed.

