(** C14-C18, C49, C50: gathering matrices: chaining, splitting and merging, locating dofs.  Only statements
    and references to proofs; vocabulary in GmSpec.v, models in GmModel.v and MsChainModel.v. *)
From Coq Require Import List Arith ZArith Lia.
From Verif Require Import Dict GmModel GmSpec GmProofs GmChain GmCache GmData GmFind MsChainModel MsChainThms.
Import ListNotations.

(** * C14 chaining *)

(** the chained numbering exists on the same elements and numbers (member, dof) bijectively *)
Theorem chaining_is_a_bijection gms cgm : Forall wf_numbering gms -> chaining gms = Some cgm ->
  chained gms cgm (total_dofs gms) /\ wf_numbering cgm /\ exists g0, hd_error gms = Some g0 /\ map keys cgm = map keys g0.
Proof. exact (fun H1 H2 => chaining_correct gms cgm H1 H2). Qed.
Print Assumptions chaining_is_a_bijection.

Theorem chaining_succeeds gms g0 : Forall wf_numbering gms -> 2 <= length gms -> hd_error gms = Some g0 ->
  Forall (fun g => Forall2 (fun a b => forall e, In e (keys a) <-> In e (keys b)) g g0) gms ->
  Forall (fun g => exactly g (num_dofs g)) gms -> exists cgm, chaining gms = Some cgm.
Proof. exact (chaining_total gms g0). Qed.
Print Assumptions chaining_succeeds.

(** chaining chains is chaining all their members *)
Theorem chaining_of_chains_is_flat (roots : list (list dgm)) (gs : list dgm) : Forall (Forall wf_numbering) roots ->
  Forall2 (fun r g => chain r = Some g) roots gs -> chain gs = chain (concat roots).
Proof. exact (chain_flatten roots gs). Qed.
Print Assumptions chaining_of_chains_is_flat.

Example two_members_meet : exists cgm, Forall wf_numbering [gA; gB] /\ chaining [gA; gB] = Some cgm /\ total_dofs [gA; gB] = 5 /\
  exactly gA 3 /\ num_dofs gA = 3 /\ cgm = [[(0, [0; 1; 2]); (1, [1; 3; 4])]].
Proof.
  eexists. split; [repeat constructor; simpl; intuition congruence|]. split; [vm_compute; reflexivity|]. split; [reflexivity|].
  split; [|split; reflexivity]. intros d. rewrite used_in. simpl. split; [intuition lia|]. intros H. destruct d as [|[|[|d]]]; auto. lia.
Qed.

(** * C49 the cache of chains *)

(** whatever is created, chained and dropped, a chain is the chain of its members, if no address is given twice *)
Theorem chain_cache_is_faithful ops st : g_run g_init ops = Some st -> NoDup (addresses ops) -> faithful st.
Proof. exact (cache_faithful ops st). Qed.
Print Assumptions chain_cache_is_faithful.

(** an address given again to another matrix brings the old chain back *)
Theorem chain_cache_address_reuse_refuted : exists st, g_run g_init reuse = Some st /\ ~ faithful st.
Proof. exact (reuse_stale). Qed.
Print Assumptions chain_cache_address_reuse_refuted.

Example history_meets : let ops := [ONew 1 gA; ONew 2 gB; OChain [0; 1]; ODel 2; OChain [0; 1]; OChain [3; 0]] in
  NoDup (addresses ops) /\ exists st, g_run g_init ops = Some st /\ length (heap st) = 4.
Proof. split; [repeat constructor; simpl; intuition congruence|]. eexists. split; vm_compute; reflexivity. Qed.

(** * C15 merge and split *)

Theorem merge_is_elementwise {A} (zero : A) gms cgm : Forall wf_numbering gms -> chaining gms = Some cgm -> Forall (fun g => exactly g (num_dofs g)) gms ->
  forall Vs, Forall2 (fun g V => length V = num_dofs g) gms Vs ->
  exists V, merge zero gms cgm Vs = Some V /\ length V = total_dofs gms /\ merged gms cgm Vs V.
Proof. exact (fun H1 H2 H3 => merge_spec zero gms cgm H1 H2 H3). Qed.
Print Assumptions merge_is_elementwise.

Theorem unmerge_is_elementwise {A} (zero : A) gms cgm : Forall wf_numbering gms -> chaining gms = Some cgm -> Forall (fun g => exactly g (num_dofs g)) gms ->
  forall V, length V = total_dofs gms ->
  exists Vs, unmerge zero gms cgm V = Some Vs /\ Forall2 (fun g V => length V = num_dofs g) gms Vs /\ merged gms cgm Vs V.
Proof. exact (fun H1 H2 H3 => unmerge_spec zero gms cgm H1 H2 H3). Qed.
Print Assumptions unmerge_is_elementwise.

Theorem vector_merge_after_split {A} (zero : A) gms cgm : Forall wf_numbering gms -> chaining gms = Some cgm -> Forall (fun g => exactly g (num_dofs g)) gms ->
  forall V, length V = total_dofs gms -> exists Vs, unmerge zero gms cgm V = Some Vs /\ merge zero gms cgm Vs = Some V.
Proof. exact (fun H1 H2 H3 => merge_unmerge zero gms cgm H1 H2 H3). Qed.
Print Assumptions vector_merge_after_split.

Theorem vector_split_after_merge {A} (zero : A) gms cgm : Forall wf_numbering gms -> chaining gms = Some cgm -> Forall (fun g => exactly g (num_dofs g)) gms ->
  forall Vs, Forall2 (fun g V => length V = num_dofs g) gms Vs -> exists V, merge zero gms cgm Vs = Some V /\ unmerge zero gms cgm V = Some Vs.
Proof. exact (fun H1 H2 H3 => unmerge_merge zero gms cgm H1 H2 H3). Qed.
Print Assumptions vector_split_after_merge.

Theorem assemble_after_share {A} (zero : A) g V : wf_numbering g -> exactly g (length V) ->
  exists data, share_ranks g V = Some data /\ assemble zero g data = Some V.
Proof. exact (fun H1 H2 => share_assemble zero g V H1 H2). Qed.
Print Assumptions assemble_after_share.

Example merge_meets : exists cgm, chaining [gA; gB] = Some cgm /\ merge 0 [gA; gB] cgm [[10; 11; 12]; [20; 21]] = Some [10; 11; 20; 12; 21].
Proof. eexists. split; vm_compute; reflexivity. Qed.

(** * C16 locating dofs *)

(** after every history of questions, if the hashes of the lists asked for differ *)
Theorem locations_are_right h n (r : rgm) qs q : NoDup (keys r) -> (forall q', In q' (q :: qs) -> h (asked n q') <> -1)%Z ->
  (forall q' q'', In q' (q :: qs) -> In q'' (q :: qs) -> h (asked n q') = h (asked n q'') -> asked n q' = asked n q'') ->
  (valid n q -> exists out, fst (find h n r (finds h n r qs fs_init) q) = Some out /\ answers r (asked n q) out) /\
  (~ valid n q -> fst (find h n r (finds h n r qs fs_init) q) = None).
Proof. exact (find_correct h n r qs q). Qed.
Print Assumptions locations_are_right.

(** a list with the hash of the list asked before gets the answer to that one *)
Theorem locations_after_hash_collision_refuted h n (r : rgm) ds ds' d : (forall x, In x ds -> 0 <= x)%Z -> NoDup (keys r) -> h ds <> (-1)%Z -> h ds = h ds' -> In d ds' -> ~ In d ds ->
  exists out, fst (find h n r (finds h n r [QList ds] fs_init) (QList ds')) = Some out /\ zget out d = None.
Proof. exact (find_collision h n r ds ds' d). Qed.
Print Assumptions locations_after_hash_collision_refuted.

Example history_of_questions : exists out, let r := [(0, [0; 1]); (1, [1; 2])] in
  fst (find (fun l => fold_right Z.add 0%Z l) 3 r (finds (fun l => fold_right Z.add 0%Z l) 3 r [QInt 2; QList [0; 1; 2]%Z] fs_init) (QInt (-2))) = Some out /\
  out = [(1%Z, [(0, 1); (1, 0)])].
Proof. eexists. split; vm_compute; reflexivity. Qed.

(** * C17 the number of a member's dof *)

Theorem number_of_local_dof gms cgm : Forall wf_numbering gms -> chaining gms = Some cgm -> exists phi : nat -> nat -> nat,
    (forall i j g h d d', nth_error gms i = Some g -> nth_error gms j = Some h -> used g d -> used h d' -> phi i d = phi j d' -> i = j /\ d = d') /\
    forall i g e r l d, nth_error gms i = Some g -> row_at g e r -> nth_error r l = Some d ->
      ith_local gms cgm i e l = Some (phi i d) /\ denotes gms cgm i d (phi i d).
Proof. exact (fun H1 H2 => ith_local_correct gms cgm H1 H2). Qed.
Print Assumptions number_of_local_dof.

Theorem dof_has_one_number gms cgm i d k k' : Forall wf_numbering gms -> chaining gms = Some cgm -> denotes gms cgm i d k -> denotes gms cgm i d k' -> k = k'.
Proof. exact (fun H1 H2 => denotes_fun gms cgm H1 H2 i d k k'). Qed.
Print Assumptions dof_has_one_number.

Theorem number_of_global_dof_refuted : exists cgm k, chaining [gA; gB] = Some cgm /\ ith_global [gA; gB] cgm 0 2 = Some k /\ ~ denotes [gA; gB] cgm 0 2 k.
Proof. exact (ith_global_wrong). Qed.
Print Assumptions number_of_global_dof_refuted.

Theorem number_of_global_dof_raises_refuted : exists cgm, chaining [gA; gB] = Some cgm /\ ith_global [gA; gB] cgm 1 1 = None /\ used gB 1.
Proof. exact (ith_global_raises). Qed.
Print Assumptions number_of_global_dof_raises_refuted.

(** * C50 equality *)

Theorem equality_of_same_shapes s : forall o, length s = length o -> Forall2 (fun a b : rgm => NoDup (keys a) /\ NoDup (keys b) /\ same_shape a b) s o ->
  exists v, eq_gm s o = Some v /\ (v = true <-> Forall2 same_rows s o).
Proof. exact (eq_gm_spec s). Qed.
Print Assumptions equality_of_same_shapes.

(** an element without dofs against an element with one *)
Theorem equality_with_empty_element_refuted : eq_gm [[(0, [0; 1]); (1, [])]] [[(0, [0; 1]); (1, [2])]] = Some true.
Proof. exact (eq_gm_wrong). Qed.
Print Assumptions equality_with_empty_element_refuted.

Example shapes_meet : Forall2 (fun a b : rgm => NoDup (keys a) /\ NoDup (keys b) /\ same_shape a b) gA gA /\ eq_gm gA gA = Some true.
Proof.
  split; [|reflexivity]. repeat constructor; simpl; try (intuition congruence).
Qed.

(** * C18 msepy chaining methods *)

Theorem chaining_method_1 gms g : m_chain 1 gms = Some g -> Forall (fun g => forall d, In d (concat g) <-> d < m_num g) gms ->
  chained (map as_numbering gms) (as_numbering g) (m_total gms).
Proof. exact (method_1_chained gms g). Qed.
Print Assumptions chaining_method_1.

Theorem chaining_method_0_sequential gms : Forall sequential gms -> gms <> [] -> Forall (fun g => length g = length (hd [] gms)) gms ->
  exists g, m_chain 0 gms = Some g /\ chained (map as_numbering gms) (as_numbering g) (m_total gms) /\ length g = length (hd [] gms).
Proof. exact (method_0_chained gms). Qed.
Print Assumptions chaining_method_0_sequential.

(** numbers not given in order: two dofs get one number *)
Theorem chaining_method_0_unordered_refuted : exists g, m_chain 0 [unordered; unordered] = Some g /\ (forall d, In d (concat unordered) <-> d < 3) /\
  exists row, In row g /\ ~ NoDup row.
Proof. exact (method_0_unordered). Qed.
Print Assumptions chaining_method_0_unordered_refuted.

Theorem chain_with_one_method env calls k names : Forall (fun nm => snd nm = k) calls ->
  fst (m_get env (m_history env calls) names k) = m_chain k (map env names).
Proof. exact (m_get_one_method env calls k names). Qed.
Print Assumptions chain_with_one_method.

Theorem chaining_method_ignored_refuted : exists env names, fst (m_get env (m_history env [(names, 0)]) names 1) <> m_chain 1 (map env names) /\ m_chain 1 (map env names) <> None.
Proof. exact (m_get_other_method). Qed.
Print Assumptions chaining_method_ignored_refuted.

Example methods_differ : m_chain 0 [[[0; 1]; [1; 2]]; [[0]; [1]]] = Some [[0; 1; 2]; [1; 3; 4]] /\ m_chain 1 [[[0; 1]; [1; 2]]; [[0]; [1]]] = Some [[0; 1; 3]; [1; 2; 4]] /\
  sequential [[0; 1]; [1; 2]].
Proof.
  split; [reflexivity|]. split; [reflexivity|]. split; [repeat constructor; simpl; intuition congruence|].
  intros [|[|[|i]]] Hi; simpl in *; try lia; [exists 0|exists 2|exists 3]; intros [|[|[|d]]]; simpl; intuition lia.
Qed.
