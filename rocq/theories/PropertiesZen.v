(** C07-C10, C33: addresses, lanes and translation of the K/V prefix cache. Vocabulary in ZenSpec.v. *)
From Verif Require Import Base ZenModel ZenProofs ZenSpec ZenMore.
Local Open Scope Z_scope.

(** C07. The address malloc computes for lane index page*2^l+lane of a blob is [blob|page|lane], and the three
    extractors return exactly these fields (hence different triples have different addresses). *)
Theorem C07_fields_round_trip : forall p l blob page lane,
  0 <= p -> 0 <= l -> p + l < 32 -> in_range p l blob page lane ->
  mkAddr blob (page * 2 ^ l + lane) p l = compose p l blob page lane /\
  getBlobAddr (mkAddr blob (page * 2 ^ l + lane) p l) p l = blob /\
  getPageAddr (mkAddr blob (page * 2 ^ l + lane) p l) p l = page /\
  getLaneAddr (mkAddr blob (page * 2 ^ l + lane) p l) p l = lane.
Proof.
  intros p l blob page lane Hp Hl H32 Hr. rewrite (compose_malloc_address p l blob page lane Hp Hl H32 Hr).
  exact (conj eq_refl (compose_fields p l blob page lane Hp Hl Hr)).
Qed.
Print Assumptions C07_fields_round_trip.
Theorem C07_addresses_injective : forall p l b1 g1 n1 b2 g2 n2,
  0 <= p -> 0 <= l -> p + l < 32 -> in_range p l b1 g1 n1 -> in_range p l b2 g2 n2 ->
  mkAddr b1 (g1 * 2 ^ l + n1) p l = mkAddr b2 (g2 * 2 ^ l + n2) p l -> b1 = b2 /\ g1 = g2 /\ n1 = n2.
Proof.
  intros p l b1 g1 n1 b2 g2 n2 Hp Hl H32 H1 H2 E.
  destruct (C07_fields_round_trip p l b1 g1 n1 Hp Hl H32 H1) as (_ & A1 & A2 & A3).
  destruct (C07_fields_round_trip p l b2 g2 n2 Hp Hl H32 H2) as (_ & B1 & B2 & B3).
  rewrite E in A1, A2, A3. rewrite A1 in B1. rewrite A2 in B2. rewrite A3 in B3. auto.
Qed.
Print Assumptions C07_addresses_injective.
Example C07_example : in_range 7 5 (2 ^ 20 - 1) 127 31 /\ mkAddr (2 ^ 20 - 1) (127 * 2 ^ 5 + 31) 7 5 = 2 ^ 32 - 1.
Proof. unfold in_range. split; [lia|vm_compute; reflexivity]. Qed.

(** C08. With in-memory/anonymous blobs: held addresses stay pairwise different for every history in which only
    first-page lanes are released; and malloc never adds a blob while a lane of a searched blob is not held. *)
Theorem C08_distinct_first_page_partial : forall p l ops z held,
  6 <= p + l -> zreach p l MAnonymous ops z held -> frees_first_page_only p l ops -> fits z -> NoDup held.
Proof.
  intros p l ops z held H6 Hz Hf Hfit. exact (proj1 (proj2 (proj1 (zreach_inv p l ops z held H6 Hz Hf Hfit)))).
Qed.
Print Assumptions C08_distinct_first_page_partial.

(** In particular all histories without releases, and all histories when page_bits = 0. *)
Theorem C08_distinct_when_no_pages : forall l ops z held,
  6 <= l -> zreach 0 l MAnonymous ops z held -> fits z -> NoDup held.
Proof.
  intros l ops z held H6 Hz Hfit.
  exact (C08_distinct_first_page_partial 0 l ops z held H6 Hz (fun a _ => page_zero_config a l) Hfit).
Qed.
Print Assumptions C08_distinct_when_no_pages.

Theorem C08_no_leak_first_page_partial : forall p l ops z held o1 o2 b k z' a,
  6 <= p + l -> zreach p l MAnonymous ops z held -> frees_first_page_only p l ops -> fits z ->
  In b (z_blobs z) -> In (bl_id b) o1 -> 0 <= k < 2 ^ (p + l) -> ~ In (bl_id b * 2 ^ (p + l) + k) held ->
  zen_malloc z o1 o2 = (z', a) -> exists a', a = Some a' /\ ~ In a' held /\ length (z_blobs z') = length (z_blobs z).
Proof. exact malloc_no_growth. Qed.
Print Assumptions C08_no_leak_first_page_partial.

Example C08_example : exists z held,
  zreach 7 5 MAnonymous (alloc_n 3 40 ++ [ZFree 7; ZFree 31] ++ alloc_n 3 2) z held /\
  ((length held =? 40)%nat && existsb (Z.eqb 31) held && (length (z_blobs z) =? 1)%nat) = true.
Proof. apply zhist_check. vm_compute. reflexivity. Qed.

(** C08 is false in the default configuration (7 page bits, 5 lane bits): 33 allocations, release of the
    33rd (page 1, lane 0), one more allocation: two held lanes share an address. *)
Theorem C08_double_allocation_refuted : exists ops z held,
  zreach 7 5 MAnonymous ops z held /\ fits z /\ ~ NoDup held.
Proof.
  exists (alloc_n 1 33 ++ [ZFree 32] ++ alloc_n 1 1).
  destruct (zhist_check 7 5 MAnonymous (alloc_n 1 33 ++ [ZFree 32] ++ alloc_n 1 1)
    (fun z h => has_dup h && ((Z.of_nat (length (z_blobs z)) + 1) * 2 ^ (z_p z + z_l z) <? 2 ^ 32)))
    as (z & h & Hz & HP); [vm_compute; reflexivity|].
  exists z, h. apply andb_prop in HP. destruct HP as [HP1 HP2].
  split; [exact Hz|split; [apply Z.ltb_lt; exact HP2|apply has_dup_spec; exact HP1]].
Qed.
Print Assumptions C08_double_allocation_refuted.

(** C08 is false for file-backed blobs even without any release: the bitmap of a disk blob has eight times as many
    bits as lanes, so addresses repeat. *)
Theorem C08_file_blob_refuted : exists n z held,
  zreach 3 3 MFile (alloc_n 2 n) z held /\ ~ NoDup held.
Proof.
  exists 129%nat.
  destruct (zhist_check 3 3 MFile (alloc_n 2 129) (fun z h => has_dup h)) as (z & h & Hz & HP); [vm_compute; reflexivity|].
  exists z, h. split; [exact Hz|apply has_dup_spec; exact HP].
Qed.
Print Assumptions C08_file_blob_refuted.

(** C08 is false when page_bits+lane_bits < 6: bitmap words always have 64 bits. *)
Theorem C08_small_geometry_refuted : exists n z held,
  zreach 2 2 MAnonymous (alloc_n 2 n) z held /\ ~ NoDup held.
Proof.
  exists 65%nat.
  destruct (zhist_check 2 2 MAnonymous (alloc_n 2 65) (fun z h => has_dup h)) as (z & h & Hz & HP); [vm_compute; reflexivity|].
  exists z, h. split; [exact Hz|apply has_dup_spec; exact HP].
Qed.
Print Assumptions C08_small_geometry_refuted.

(** C09. Byte ranges: in range and pairwise disjoint within a blob, for every geometry. *)
Theorem C09_access_ranges : forall z tok a1 a2 b1 o1 b2 o2,
  0 <= z_p z -> 0 <= z_l z -> 0 < tok -> 0 <= a1 -> 0 <= a2 -> a1 <> a2 ->
  zen_access z tok a1 = Some (b1, o1) -> zen_access z tok a2 = Some (b2, o2) -> b1 = b2 ->
  0 <= o1 /\ o1 + tok <= 2 ^ (z_p z + z_l z) * tok /\ (o1 + tok <= o2 \/ o2 + tok <= o1).
Proof.
  intros z tok a1 a2 b1 o1 b2 o2 Hp Hl Ht H1 H2 Hne E1 E2 Hb. unfold zen_access in *.
  destruct (find_blob _ _); [|discriminate]. injection E1 as <- <-.
  destruct (find_blob _ _); [|discriminate]. injection E2 as <- <-.
  exact (access_range (z_p z) (z_l z) tok a1 a2 Hp Hl Ht H1 H2 Hb Hne).
Qed.
Print Assumptions C09_access_ranges.
Theorem C09_blob_large_enough : forall p l ele bytes lns,
  0 <= p -> 0 <= l -> 0 < lns -> 0 <= ele -> 0 <= bytes ->
  2 ^ (p + l) * lane_bytes ele bytes lns <= blob_bytes p l ele bytes lns.
Proof. exact blob_holds_lanes. Qed.
Print Assumptions C09_blob_large_enough.
Example C09_example : exists z held, zreach 7 5 MAnonymous (alloc_n 1 40) z held /\
  (match zen_access z 2048 39 with Some (b, o) => (b =? 0) && (o =? 39 * 2048) | None => false end) = true.
Proof.
  apply (zhist_check 7 5 MAnonymous (alloc_n 1 40) (fun z h => match zen_access z 2048 39 with Some (b, o) => (b =? 0) && (o =? 39 * 2048) | None => false end)).
  vm_compute. reflexivity.
Qed.
(** C09 is false for the hints: lane 0 of page 1 is prefetched/purged at the bytes of lane 1 of page 0. *)
Theorem C09_hints_refuted : exists z held a tok b off,
  zreach 7 5 MAnonymous (alloc_n 1 33) z held /\ In a held /\
  zen_access z tok a = Some (b, off) /\ hint_offset (z_p z) (z_l z) tok a <> off /\
  exists a', In a' held /\ a' <> a /\ zen_access z tok a' = Some (b, hint_offset (z_p z) (z_l z) tok a).
Proof.
  destruct (zhist_check 7 5 MAnonymous (alloc_n 1 33)
    (fun z h => existsb (Z.eqb 32) h && existsb (Z.eqb 1) h && (hint_offset (z_p z) (z_l z) 2048 32 =? 2048) &&
      match zen_access z 2048 32, zen_access z 2048 1 with
      | Some (b, o), Some (b', o') => (b =? 0) && (o =? 65536) && (b' =? 0) && (o' =? 2048) | _, _ => false end))
    as (z & h & Hz & HP); [vm_compute; reflexivity|].
  apply andb_prop in HP. destruct HP as [HP H4]. apply andb_prop in HP. destruct HP as [HP H3].
  apply andb_prop in HP. destruct HP as [H1 H2]. apply existsb_in in H1, H2. apply Z.eqb_eq in H3.
  destruct (zen_access z 2048 32) as [[b o]|] eqn:E1; [|discriminate].
  destruct (zen_access z 2048 1) as [[b' o']|] eqn:E2; [|discriminate].
  assert (b = 0) by lia. assert (o = 65536) by lia. assert (b' = 0) by lia. assert (o' = 2048) by lia. subst.
  exists z, h, 32, 2048, 0, 65536. split; [exact Hz|split; [exact H1|split; [exact E1|split; [lia|]]]].
  exists 1. split; [exact H2|split; [lia|]]. rewrite H3. exact E2.
Qed.
Print Assumptions C09_hints_refuted.
Theorem C09_hints_first_page_partial : forall p l tok a,
  getPageAddr a p l = 0 -> hint_offset p l tok a = (getPageAddr a p l * 2 ^ l + getLaneAddr a p l) * tok.
Proof. intros p l tok a H. unfold hint_offset. rewrite H. ring. Qed.
Print Assumptions C09_hints_first_page_partial.

(** C10. The translation buffer returns the first pointer inserted since the address was last removed. *)
Theorem C10_tlb_is_a_map : forall ops a,
  (exists seg, since_removed a ops seg) /\
  forall seg, since_removed a ops seg -> tlb_lookup (fold_left tlb_step ops []) a = first_insert a seg.
Proof. exact (fun ops a => conj (since_removed_exists a ops) (tlb_history ops a)). Qed.
Print Assumptions C10_tlb_is_a_map.
Example C10_example : since_removed 5 [TInsert 5 1; TRemove 5; TInsert 6 3; TInsert 5 7; TInsert 5 8] [TInsert 6 3; TInsert 5 7; TInsert 5 8].
Proof.
  exists [TInsert 5 1; TRemove 5]. split; [reflexivity|split; [right; exists [TInsert 5 1]; reflexivity|]].
  simpl. intuition discriminate.
Qed.
(** Every held lane is mapped to its own bytes (same guard as C08). *)
Theorem C10_held_lane_mapped_partial : forall basep tok p l ops c held,
  6 <= p + l -> preach basep tok p l MAnonymous ops c held -> frees_first_page_only p l ops -> fits (pc_zen c) ->
  forall a, In a held -> pca_physical c a = Some (phys basep (pc_zen c) tok a).
Proof. exact preach_mapped. Qed.
Print Assumptions C10_held_lane_mapped_partial.
Example C10_example2 : exists c held, preach (fun b => 2 ^ 40 * (b + 1)) 2048 7 5 MAnonymous (alloc_n 1 40 ++ [ZFree 3]) c held /\
  existsb (Z.eqb 39) held = true.
Proof. apply (phist_check _ _ _ _ _ _ (fun c h => existsb (Z.eqb 39) h)). vm_compute. reflexivity. Qed.
(** Without the guard a lane that is still held loses its mapping. *)
Theorem C10_held_lane_unmapped_refuted : exists basep tok ops c held a,
  preach basep tok 7 5 MAnonymous ops c held /\ fits (pc_zen c) /\ In a held /\ pca_physical c a = None.
Proof.
  exists (fun b => 2 ^ 40 * (b + 1)), 2048, (alloc_n 1 33 ++ [ZFree 32] ++ alloc_n 1 1 ++ [ZFree 0]).
  destruct (phist_check (fun b => 2 ^ 40 * (b + 1)) 2048 7 5 MAnonymous (alloc_n 1 33 ++ [ZFree 32] ++ alloc_n 1 1 ++ [ZFree 0])
    (fun c h => existsb (Z.eqb 0) h && (match pca_physical c 0 with None => true | _ => false end) &&
       ((Z.of_nat (length (z_blobs (pc_zen c))) + 1) * 2 ^ (z_p (pc_zen c) + z_l (pc_zen c)) <? 2 ^ 32)))
    as (c & h & Hz & HP); [vm_compute; reflexivity|].
  apply andb_prop in HP. destruct HP as [HP H3]. apply andb_prop in HP. destruct HP as [H1 H2].
  exists c, h, 0. split; [exact Hz|split; [apply Z.ltb_lt; exact H3|split; [apply existsb_in; exact H1|]]].
  destruct (pca_physical c 0); [discriminate|reflexivity].
Qed.
Print Assumptions C10_held_lane_unmapped_refuted.

(** C33. Recovering from disk marks every lane free: an allocation after recovery returns a lane that was in use. *)
Theorem C33_recover_forgets_lanes_refuted : exists ops z held z' a,
  zreach 7 5 MAnonymous ops z held /\ zen_malloc (zen_recover z) [0] [0] = (z', Some a) /\ In a held.
Proof.
  exists (alloc_n 1 3).
  destruct (zhist_check 7 5 MAnonymous (alloc_n 1 3)
    (fun z h => match zen_malloc (zen_recover z) [0] [0] with (_, Some a) => existsb (Z.eqb a) h | _ => false end))
    as (z & h & Hz & HP); [vm_compute; reflexivity|].
  destruct (zen_malloc (zen_recover z) [0] [0]) as [z' [a|]] eqn:E; [|discriminate].
  exists z, h, z', a. split; [exact Hz|split; [exact E|apply existsb_in; exact HP]].
Qed.
Print Assumptions C33_recover_forgets_lanes_refuted.
