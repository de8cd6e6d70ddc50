(** Properties C107 to C109: the bookkeeping of intersection segments.
    Vocabulary: BoolSegModel, BoolSegSpec. *)
From Verif Require Import BoolSeg ClaimsClass.
From Verif Require Import MeshHistSpec MeshBase MeshInv MeshWF MeshDemo.
Local Open Scope N_scope.

Section claims.
Context {P : Type}.
Implicit Types (m : mesh P) (s : iseg P) (segs group : list (iseg P)).

(** C107: duplicates. The call does not panic and changes nothing but the marks; a
    segment stays unmarked exactly when it stands for the segments with its ends. *)
Theorem C107_marks hash eqb same segs : LawfulHash hash eqb same →
  ∃ out, remove_duplicate_segments hash eqb segs = Some out ∧ length out = length segs ∧
    ∀ i s', out !! i = Some s' → ∃ s, segs !! i = Some s ∧
      sg_va s' = sg_va s ∧ sg_vb s' = sg_vb s ∧ sg_pa s' = sg_pa s ∧ sg_pb s' = sg_pb s ∧ sg_cop s' = sg_cop s ∧
      (sg_inv s' = false ↔ stands same segs i).
Proof.
  intros LH. destruct (remove_duplicate_ok hash eqb same LH segs) as (inv&->&Hi). eexists. split; [done|]. split; [apply imap_length|].
  intros i s'. rewrite list_lookup_imap. destruct (segs !! i) as [s|] eqn:E; [|done]. cbn. intros [= <-]. exists s. split; [done|]. cbn.
  split; [done|]. split; [done|]. split; [done|]. split; [done|]. split; [done|]. rewrite bool_decide_eq_false, Hi.
  pose proof (lookup_lt_Some _ _ _ E) as Hlt. split.
  - intros Hn. destruct (decide (i ∈ inv)) as [H|H]; [by apply Hi in H|]. 
    assert (stands same segs i ∨ ¬ stands same segs i) as [?|Hs]; [|done|].
    { destruct (stands_exists hash eqb same LH segs i s E) as (j&s'&Ej&Hse&Hst). destruct (decide (i = j)) as [->|Hne]; [by left|].
      right. intros Hst'. apply Hne. apply (standsP_unique hash eqb same LH segs (length segs) i j s s'); try done; by apply standsP_all. }
    by destruct Hn.
  - by intros Hs [_ ?].
Qed.

(** C107: for every segment exactly one segment with its ends is left, and it is coplanar
    if one of them is. *)
Theorem C107_one_left hash eqb same segs out : LawfulHash hash eqb same → remove_duplicate_segments hash eqb segs = Some out →
  ∀ i s, segs !! i = Some s →
    ∃ j t, out !! j = Some t ∧ same_ends same s t ∧ sg_inv t = false ∧
      (sg_cop t = true ↔ ∃ k s', segs !! k = Some s' ∧ same_ends same s s' ∧ sg_cop s' = true) ∧
      ∀ j' t', out !! j' = Some t' → same_ends same s t' → sg_inv t' = false → j' = j.
Proof.
  intros LH E i s Es. destruct (C107_marks hash eqb same segs LH) as (out'&E'&Hlen&Ho). rewrite E in E'. injection E' as <-.
  destruct (stands_exists hash eqb same LH segs i s Es) as (j&s'&Ej&Hse&Hst).
  assert (∀ k tk sk, out !! k = Some tk → segs !! k = Some sk → ∀ x, same_ends same x tk ↔ same_ends same x sk) as Hends.
  { intros k tk sk Etk Esk x. destruct (Ho k tk Etk) as (sk'&Esk'&_&_&Ea&Eb&_). rewrite Esk in Esk'. injection Esk' as <-.
    unfold same_ends. by rewrite Ea, Eb. }
  destruct (lookup_lt_is_Some_2 out j) as [t Et]. { rewrite Hlen. by eapply lookup_lt_Some. }
  destruct (Ho j t Et) as (s''&Es''&_&_&_&_&Ec&Hi). rewrite Ej in Es''. injection Es'' as <-.
  exists j, t. split; [done|]. split; [by apply (Hends j t s')|]. split; [by apply Hi|]. split.
  - rewrite Ec. split; [intros Hc; eauto|]. intros (k&sk&Ek&Hsk&Hck). destruct Hst as (s0&E0&Hst). rewrite Ej in E0. injection E0 as <-.
    destruct (sg_cop s'); [done|]. destruct (Hst k sk Ek) as [Hf _]; [|congruence].
    eapply (se_trans hash eqb same LH); [|exact Hsk]. by apply (se_sym hash eqb same LH).
  - intros j' t' Et' Hse' Hi'. destruct (Ho j' t' Et') as (s0&E0&_&_&_&_&_&Hi0). apply (Hends j' t' s0 Et' E0) in Hse'. apply Hi0 in Hi'.
    apply (standsP_unique hash eqb same LH segs (length segs) j' j s0 s'); try done; try (by apply standsP_all).
    eapply (se_trans hash eqb same LH); [|exact Hse]. by apply (se_sym hash eqb same LH).
Qed.

(** C108: the triangles found among segments of one plane *)
Theorem C108_triangles flat m group : ends_in m group →
  ∃ ts, extract_triangles flat m group = Some ts ∧ NoDup ts ∧ ∀ t, t ∈ ts ↔ triangle_of flat m (λ s, s ∈ group) t.
Proof. apply extract_ok. Qed.

(** C109: build_links keeps the segments that are not coplanar and returns the triangles
    of the coplanar segments along edges of faces of one plane, for every order in which
    the planes are visited. *)
Theorem C109_links {K} `{Countable K} flat (plane : N → option K) (order : ∀ A, list A → list A) m segs :
  (∀ A l, order A l ≡ₚ l) → WellFormed m → (∀ f, live_face m f → is_Some (plane f)) → ends_in m segs →
  ∃ ts, build_links flat plane order m segs = Some (filter (λ s, sg_cop s = false) segs, ts) ∧
    ∀ t, t ∈ ts ↔ ∃ k, triangle_of flat m (on_plane plane m segs k) t.
Proof. intros Ho HW%WF_iff Hp Hi. by apply build_links_ok. Qed.
End claims.

(** ** Cases *)
Definition zhash (z : Z) : N := Z.to_N (z mod 3).
Lemma zlawful : LawfulHash zhash Z.eqb eq.
Proof. split; [apply Z.eqb_eq|done|by intros ? ? ->|by intros ? ? ? -> ->|by intros ? ? ->]. Qed.
Definition seg (p q : Z) (c : bool) : iseg Z := mkSeg None None p q c false.
(** the third segment is the first one reversed and coplanar; 4 has the hash of 1 *)
Definition some_segs : list (iseg Z) := [seg 1 2 false; seg 4 5 false; seg 2 1 true; seg 5 4 false; seg 4 2 false; seg 1 2 true].
Example C107_nonvacuous : LawfulHash zhash Z.eqb eq ∧
  option_map (List.map sg_inv) (remove_duplicate_segments zhash Z.eqb some_segs) = Some [true; false; false; true; false; true].
Proof. split; [apply zlawful|vm_compute; reflexivity]. Qed.

(** the base of the double pyramid and its upper part *)
Definition edge_seg (u v : N) (c : bool) : iseg Z := mkSeg (Some u) (Some v) 0%Z 0%Z c false.
Definition pyramid_segs : list (iseg Z) :=
  [edge_seg 0 1 true; edge_seg 2 1 true; edge_seg 1 3 false; edge_seg 2 0 true; edge_seg 0 3 true; edge_seg 1 3 true].
Definition equal_ends (a b c : Z) : bool := (a =? b)%Z || (b =? c)%Z.
Definition one_plane (f : N) : option N := Some (if f <? 3 then 0 else f).
Lemma ends_check m (segs : list (iseg Z)) : forallb (λ s, match sg_va s, sg_vb s with
  | Some u, Some v => bool_decide (is_Some (verts m !! u)) && bool_decide (is_Some (verts m !! v)) | _, _ => false end) segs = true → ends_in m segs.
Proof.
  intros H s Hs. rewrite forallb_forall in H. specialize (H s ltac:(by apply elem_of_list_In)).
  destruct (sg_va s) as [u|]; [|done]. destruct (sg_vb s) as [v|]; [|done]. apply andb_true_iff in H as [H1%bool_decide_eq_true H2%bool_decide_eq_true].
  by exists u, v.
Qed.
Example C108_nonvacuous : ends_in one_pyramid pyramid_segs ∧
  extract_triangles equal_ends one_pyramid pyramid_segs = Some [(0, 1, 2); (0, 1, 3)].
Proof. split; [apply ends_check; vm_compute; reflexivity|vm_compute; reflexivity]. Qed.
Example C109_nonvacuous : WellFormed one_pyramid ∧ ends_in one_pyramid pyramid_segs ∧ (∀ f, live_face one_pyramid f → is_Some (one_plane f)) ∧
  build_links equal_ends one_plane (λ _ l, l) one_pyramid pyramid_segs = Some ([edge_seg 1 3 false], [(0, 1, 2); (0, 1, 3)]).
Proof.
  split; [apply wf_one|]. split; [apply ends_check; vm_compute; reflexivity|]. split; [intros f _; by eexists|]. vm_compute. reflexivity.
Qed.

Print Assumptions C107_marks.
Print Assumptions C107_one_left.
Print Assumptions C108_triangles.
Print Assumptions C109_links.
