(** Facts about itertools.combinations and the simplex causet. *)
From Verif Require Import Base Spec EventModel EventFacts CausetModel CausetFacts BuildModel
  BuildFacts FenceFacts PyStr.
From Coq Require Import Ascii.

(** * combinations *)
Lemma combinations_spec {A} (l : list A) : ∀ k c,
  c ∈ combinations l k ↔ c `sublist_of` l ∧ length c = k.
Proof.
  induction l as [|x l IH]; intros [|k] c; cbn [combinations].
  - rewrite elem_of_list_singleton. split; [intros ->; split; [constructor|done]|].
    intros [_ H]. by apply nil_length_inv.
  - split; [intros H; by apply elem_of_nil in H|]. intros [->%sublist_nil_r H]. done.
  - rewrite elem_of_list_singleton. split; [intros ->; split; [apply sublist_nil_l|done]|].
    intros [_ H]. by apply nil_length_inv.
  - rewrite elem_of_app, elem_of_list_fmap, (IH (S k)). setoid_rewrite IH. rewrite sublist_cons_r. split.
    + intros [(c' & -> & H1 & H2)|[H1 H2]]; [|tauto]. split; [right; eauto|cbn; lia].
    + intros [[H1|(c' & -> & H1)] H2]; [tauto|]. left. exists c'. cbn in H2. split_and!; [done|done|lia].
Qed.
Lemma sublist_elem {A} (c l : list A) x : c `sublist_of` l → x ∈ c → x ∈ l.
Proof.
  intros H Hx. apply sublist_submseteq in H. by eapply elem_of_submseteq.
Qed.
Lemma sublist_nodup {A} (c l : list A) : c `sublist_of` l → NoDup l → NoDup c.
Proof.
  induction 1 as [|x c l Hs IH|x c l Hs IH]; intros Hl; [constructor| |].
  - apply NoDup_cons in Hl as [H1 H2]. apply NoDup_cons. split; [|auto].
    intros Hx. apply H1. by eapply sublist_elem.
  - apply NoDup_cons in Hl as [H1 H2]. auto.
Qed.
Lemma combinations_nodup {A} (l : list A) : ∀ k, NoDup l → NoDup (combinations l k).
Proof.
  induction l as [|x l IH]; intros [|k] Hl; cbn [combinations];
    try apply NoDup_singleton; try apply NoDup_nil_2.
  apply NoDup_cons in Hl as [Hx Hl]. apply NoDup_app. split_and!; [|intros c Hc Hc'|by apply IH].
  - apply NoDup_fmap_2; [|by apply IH]. intros a b [= ->]. done.
  - apply elem_of_list_fmap in Hc as (c' & -> & _). apply combinations_spec in Hc' as [Hs _].
    apply Hx. eapply sublist_elem; [done|]. apply elem_of_list_here.
Qed.
Lemma combinations_fmap {A B} (f : A → B) (l : list A) : ∀ k,
  combinations (f <$> l) k = (λ c : list A, f <$> c) <$> combinations l k.
Proof.
  induction l as [|x l IH]; intros [|k]; cbn [combinations fmap list_fmap]; try done.
  rewrite fmap_app, <- IH. f_equal. rewrite IH, <- !list_fmap_compose.
  apply list_fmap_ext. done.
Qed.
(** Sublists of a list without duplicates are determined by their elements. *)
Lemma sublist_ext {A} (l c c' : list A) :
  NoDup l → c `sublist_of` l → c' `sublist_of` l → (∀ x, x ∈ c ↔ x ∈ c') → c = c'.
Proof.
  revert c c'. induction l as [|x l IH]; intros c c' Hl Hc Hc' He.
  { apply sublist_nil_r in Hc as ->, Hc' as ->. done. }
  apply NoDup_cons in Hl as [Hx Hl]. apply sublist_cons_r in Hc, Hc'.
  destruct Hc as [Hc|(d & -> & Hc)], Hc' as [Hc'|(d' & -> & Hc')].
  - by apply IH.
  - exfalso. apply Hx. eapply sublist_elem; [exact Hc|]. apply He, elem_of_list_here.
  - exfalso. apply Hx. eapply sublist_elem; [exact Hc'|]. apply He, elem_of_list_here.
  - f_equal. apply IH; try done. intros y. specialize (He y). rewrite !elem_of_cons in He. split.
    + intros Hy. destruct (proj1 He (or_intror Hy)) as [->|?]; [|done]. exfalso. apply Hx. exact (sublist_elem _ _ _ Hc Hy).
    + intros Hy. destruct (proj2 He (or_intror Hy)) as [->|?]; [|done]. exfalso. apply Hx. exact (sublist_elem _ _ _ Hc' Hy).
Qed.
Lemma filter_sublist {A} (P : A → Prop) `{∀ x, Decision (P x)} (l : list A) : filter P l `sublist_of` l.
Proof.
  induction l as [|x l IH]; [constructor|]. rewrite filter_cons. destruct (decide _); by constructor.
Qed.
(** A sublist of a sublist on fewer elements extends to one with one element less. *)
Lemma facet_exists (l c g : list nat) :
  NoDup l → c `sublist_of` l → g `sublist_of` l → (list_to_set g : gset nat) ⊂ list_to_set c →
  ∃ f, f `sublist_of` c ∧ length f = length c - 1 ∧ (list_to_set g : gset nat) ⊆ list_to_set f.
Proof.
  intros Hl Hc Hg [Hsub Hns].
  assert (Hv : ∃ v, v ∈ c ∧ v ∉ g).
  { destruct (decide (Forall (λ v, v ∈ g) c)) as [Hf|Hf].
    - exfalso. apply Hns. intros v Hv. rewrite elem_of_list_to_set in Hv |- *.
      rewrite Forall_forall in Hf. by apply Hf.
    - apply not_Forall_Exists in Hf; [|apply _]. apply Exists_exists in Hf as (v & Hv & Hvg). eauto. }
  destruct Hv as (v & Hv & Hvg). exists (filter (λ y, y ≠ v) c). split_and!.
  - apply filter_sublist.
  - assert (Hn : NoDup c) by (by eapply sublist_nodup). clear -Hv Hn.
    induction c as [|x c IH]; [by apply elem_of_nil in Hv|]. apply NoDup_cons in Hn as [Hx Hn].
    rewrite filter_cons. destruct (decide (x ≠ v)) as [Hne|He].
    + cbn. apply elem_of_cons in Hv as [->|Hv]; [done|]. rewrite (IH Hv Hn).
      destruct c; [by apply elem_of_nil in Hv|cbn; lia].
    + apply dec_stable in He as ->. cbn. rewrite Nat.sub_0_r. f_equal.
      clear -Hx. induction c as [|y c IH]; [done|]. rewrite filter_cons, decide_True.
      * f_equal. apply IH. intros H. apply Hx. by apply elem_of_list_further.
      * intros ->. apply Hx, elem_of_list_here.
  - intros y Hy. pose proof (Hsub y Hy) as Hyc. rewrite elem_of_list_to_set in Hy, Hyc |- *.
    apply elem_of_list_filter. split; [|done]. intros ->. done.
Qed.
Lemma sublist_set_length (l c g : list nat) :
  NoDup l → c `sublist_of` l → g `sublist_of` l → (list_to_set g : gset nat) ⊂ list_to_set c →
  length g < length c.
Proof.
  intros Hl Hc Hg Hs. apply subset_size in Hs. rewrite !size_list_to_set in Hs; [done|..];
    by eapply sublist_nodup.
Qed.
Lemma sublist_subset_iff (l c g : list nat) :
  NoDup l → c `sublist_of` l → g `sublist_of` l →
  (list_to_set g : gset nat) ⊂ list_to_set c ↔ (list_to_set g : gset nat) ⊆ list_to_set c ∧ g ≠ c.
Proof.
  intros Hl Hc Hg. split.
  - intros [H1 H2]. split; [done|]. intros ->. done.
  - intros [H1 H2]. split; [done|]. intros H3. apply H2. eapply sublist_ext; [done|done|done|].
    intros x. specialize (H1 x). specialize (H3 x). rewrite !elem_of_list_to_set in H1, H3. tauto.
Qed.

(** * Labels of faces *)
#[global] Instance str_of_nat_Inj : Inj (=) (=) str_of_nat.
Proof. intros a b. apply str_of_nat_inj. Qed.
Lemma flabel_inj c c' : c ≠ [] → c' ≠ [] → flabel c = flabel c' → c = c'.
Proof.
  intros Hc Hc' He. unfold flabel in He. apply join_inj in He.
  - by apply (inj (fmap str_of_nat)) in He.
  - by destruct c.
  - by destruct c'.
  - intros s (n & -> & _)%elem_of_list_fmap. apply str_of_nat_no_dash.
  - intros s (n & -> & _)%elem_of_list_fmap. apply str_of_nat_no_dash.
Qed.

(** * Counting *)
Fixpoint sumf (f : nat → nat) (n : nat) : nat := match n with O => 0 | S n' => sumf f n' + f n' end.
Definition ncomb {A} (l : list A) (k : nat) : nat := length (combinations l k).
Lemma ncomb_pascal {A} (x : A) l k : ncomb (x :: l) (S k) = ncomb l k + ncomb l (S k).
Proof. unfold ncomb. cbn [combinations]. by rewrite app_length, fmap_length. Qed.
Lemma ncomb_0 {A} (l : list A) : ncomb l 0 = 1.
Proof. by destruct l. Qed.
Lemma sumf_pascal {A} (x : A) l m :
  sumf (ncomb (x :: l)) (S m) = sumf (ncomb l) m + sumf (ncomb l) (S m).
Proof.
  induction m as [|m IH]; [cbn [sumf]; by rewrite !ncomb_0|].
  change (sumf (ncomb (x :: l)) (S m) + ncomb (x :: l) (S m) =
    sumf (ncomb l) m + ncomb l m + (sumf (ncomb l) (S m) + ncomb l (S m))).
  rewrite IH, ncomb_pascal. lia.
Qed.
Lemma subsets_count {A} (l : list A) : ∀ m, length l < m → sumf (ncomb l) m = 2 ^ length l.
Proof.
  induction l as [|x l IH]; intros [|m] Hm; [lia| |lia|].
  - induction m as [|m IHm]; [done|]. cbn [sumf] in *. rewrite IHm by (cbn; lia). done.
  - rewrite sumf_pascal. cbn [length] in Hm. rewrite (IH m), (IH (S m)) by lia. cbn. lia.
Qed.
Lemma ncomb_full {A} (l : list A) : ncomb l (length l) = 1.
Proof.
  assert (Hbig : ∀ (l : list A) k, length l < k → ncomb l k = 0).
  { intros l' k Hk. unfold ncomb. destruct (combinations l' k) as [|c cs] eqn:E; [done|].
    assert (Hc : c ∈ combinations l' k) by (rewrite E; apply elem_of_list_here).
    apply combinations_spec in Hc as [Hs Hl]. apply sublist_length in Hs. lia. }
  induction l as [|x l IH]; [done|]. cbn [length]. rewrite ncomb_pascal, IH, Hbig by lia. done.
Qed.
Lemma ncomb_1 {A} (l : list A) : ncomb l 1 = length l.
Proof. induction l as [|x l IH]; [done|]. rewrite ncomb_pascal, ncomb_0, IH. done. Qed.

(** * The construction *)
Section simplex.
Context (it : oracle) (Hit : iter_ok it) (h0 : heap) (n : nat) (vs : list nat).
Context (Hvs : length vs = n).

(** The vertex with number [i] (1..n). *)
Definition vid (i : nat) : nat := vs !!! (i - 1).
Lemma vs_vid : vs = vid <$> seq 1 n.
Proof using Hvs.
  apply list_eq. intros i. rewrite list_lookup_fmap. destruct (decide (i < n)) as [Hi|Hi].
  - rewrite lookup_seq_lt by done. cbn [fmap option_fmap option_map]. unfold vid. replace (1 + i - 1) with i by lia.
    apply list_lookup_lookup_total_lt. lia.
  - rewrite lookup_seq_ge by lia. cbn. apply lookup_ge_None. lia.
Qed.

(** Faces are sublists of 1..n; [F] lists the faces of the events [evs]. *)
Record simplex_inv (h : heap) (F : list (list nat)) (evs : list nat) : Prop := SimplexInv {
  si_fresh : fresh_causet h0 h evs;
  si_len : length F = length evs;
  si_nodup : NoDup F;
  si_sub : ∀ c, c ∈ F → c `sublist_of` seq 1 n ∧ c ≠ [];
  si_lab : ∀ k c x, F !! k = Some c → evs !! k = Some x → lab h x = LStr (flabel c);
  si_vlab : ∀ i, 1 ≤ i ≤ n → lab h (vid i) = LStr (str_of_nat i) ∧ vid i ∈ evs;
  si_ord : ∀ i j c d x y, F !! i = Some c → F !! j = Some d → evs !! i = Some x → evs !! j = Some y →
    before h x y ↔ (list_to_set c : gset nat) ⊂ list_to_set d
}.

Lemma si_face_label h F evs c :
  simplex_inv h F evs → c `sublist_of` seq 1 n → face_label h (vid <$> c) = flabel c.
Proof.
  intros HI Hc. unfold face_label, flabel. f_equal. rewrite <- list_fmap_compose.
  apply list_fmap_ext. intros k i Hk. cbn.
  assert (Hi : i ∈ seq 1 n) by (eapply sublist_elem; [done|by eapply elem_of_list_lookup_2]).
  apply elem_of_seq in Hi. destruct (si_vlab _ _ _ HI i) as [-> _]; [lia|]. done.
Qed.
Lemma si_by_label h F evs c x :
  simplex_inv h F evs → c ≠ [] → x ∈ evs →
  lab h x = LStr (flabel c) ↔ ∃ k, F !! k = Some c ∧ evs !! k = Some x.
Proof.
  intros HI Hc [k Hk]%elem_of_list_lookup. split.
  - intros Hl. exists k. split; [|done].
    assert (Hd : is_Some (F !! k)).
    { apply lookup_lt_is_Some. rewrite (si_len _ _ _ HI). by eapply lookup_lt_Some. }
    destruct Hd as [d Hd]. rewrite (si_lab _ _ _ HI k d x Hd Hk) in Hl. injection Hl as Hl.
    apply flabel_inj in Hl as ->; [done| |done].
    apply (si_sub _ _ _ HI). by eapply elem_of_list_lookup_2.
  - intros (k' & H1 & H2). by eapply si_lab.
Qed.

(** A new face [c] whose past is given by [P]. *)
Lemma simplex_alloc h F evs c P :
  simplex_inv h F evs → c `sublist_of` seq 1 n → c ≠ [] → c ∉ F →
  (∀ d, d ∈ F → ¬ (list_to_set c : gset nat) ⊂ list_to_set d) →
  (∀ p, p ∈ P → p ∈ evs) →
  (∀ k d x, F !! k = Some d → evs !! k = Some x →
     (∃ p, p ∈ P ∧ (x = p ∨ x ∈ prec h p)) ↔ (list_to_set d : gset nat) ⊂ list_to_set c) →
  ∃ h' x, alloc it (LStr (flabel c)) P h = (h', x) ∧ simplex_inv h' (F ++ [c]) (evs ++ [x]).
Proof using Hit Hvs.
  intros HI Hc Hne HcF Hmax HP Hpast.
  destruct (alloc_spec it h0 h evs (LStr (flabel c)) P Hit (si_fresh _ _ _ HI) HP) as
    (Hf' & Hxn & Hdom & Hlx & Hrest & Hpx & Hnex & _).
  destruct (alloc it (LStr (flabel c)) P h) as [h' x] eqn:Ea. cbn [fst snd] in *.
  exists h', x. split; [done|]. assert (Hlen := si_len _ _ _ HI).
  assert (Hlk : ∀ k d y, (F ++ [c]) !! k = Some d → (evs ++ [x]) !! k = Some y →
    (F !! k = Some d ∧ evs !! k = Some y) ∨ (k = length evs ∧ d = c ∧ y = x)).
  { intros k d y Hd Hy. apply lookup_app_Some in Hd as [Hd|[Hge Hd]].
    - left. split; [done|]. apply lookup_app_Some in Hy as [Hy|[Hge Hy]]; [done|].
      apply lookup_lt_Some in Hd. lia.
    - right. apply list_lookup_singleton_Some in Hd as [H0 <-].
      apply lookup_app_Some in Hy as [Hy|[Hge' Hy]]; [apply lookup_lt_Some in Hy; lia|].
      apply list_lookup_singleton_Some in Hy as [H1 <-]. split_and!; [lia|done|done]. }
  split.
  - done.
  - rewrite !app_length. cbn. lia.
  - apply NoDup_app. split_and!; [apply (si_nodup _ _ _ HI)| |apply NoDup_singleton].
    intros d Hd ->%elem_of_list_singleton. done.
  - intros d [Hd| ->%elem_of_list_singleton]%elem_of_app; [by eapply si_sub|done].
  - intros k d y Hd Hy. destruct (Hlk k d y Hd Hy) as [[H1 H2]|(_ & -> & ->)]; [|done].
    destruct (Hrest y) as (_ & -> & _); [|by eapply si_lab].
    apply Hnex. by eapply elem_of_list_lookup_2.
  - intros i Hi. destruct (si_vlab _ _ _ HI i Hi) as [H1 H2].
    destruct (Hrest (vid i)) as (_ & -> & _); [by apply Hnex|]. split; [done|]. apply elem_of_app. by left.
  - intros i j d d' y z Hd Hd' Hy Hz.
    destruct (Hlk i d y Hd Hy) as [[H1 H2]|(_ & -> & ->)];
    destruct (Hlk j d' z Hd' Hz) as [[H3 H4]|(_ & -> & ->)].
    + unfold before. destruct (Hrest z) as (-> & _ & _); [apply Hnex; by eapply elem_of_list_lookup_2|].
      exact (si_ord _ _ _ HI i j d d' y z H1 H3 H2 H4).
    + unfold before. rewrite Hpx. exact (Hpast i d y H1 H2).
    + unfold before. destruct (Hrest z) as (-> & _ & _); [apply Hnex; by eapply elem_of_list_lookup_2|].
      split; intros Hb; exfalso.
      * apply Hxn. exact (prec_dom_l h (fc_order _ _ _ (si_fresh _ _ _ HI)) x z Hb).
      * apply (Hmax d'); [by eapply elem_of_list_lookup_2|done].
    + split; intros Hb; exfalso.
      * exact (oi_irr h' (fc_order _ _ _ Hf') x Hb).
      * by apply (irreflexivity (⊂) (list_to_set c : gset nat)).
Qed.

Lemma simplex_inner k todo : ∀ F h evs,
  2 ≤ k → simplex_inv h F evs → (∀ c, c ∈ F → length c ≤ k) →
  (∀ c, c `sublist_of` seq 1 n → length c = k - 1 → c ∈ F) →
  NoDup todo → (∀ c, c ∈ todo → c `sublist_of` seq 1 n ∧ length c = k ∧ c ∉ F) →
  ∃ h' evs', foldl (simplex_face it) (h, list_to_set evs) ((λ c : list nat, vid <$> c) <$> todo) = (h', list_to_set evs') ∧
    simplex_inv h' (F ++ todo) evs'.
Proof using Hit Hvs.
  induction todo as [|c todo IH]; intros F h evs Hk HI Hle Hall Hnd Htodo.
  { exists h, evs. rewrite app_nil_r. split; [done|done]. }
  cbn [fmap list_fmap foldl].
  destruct (Htodo c) as (Hc & Hcl & HcF); [apply elem_of_list_here|].
  assert (Hcne : c ≠ []) by (intros ->; cbn in Hcl; lia).
  assert (Hns : NoDup (seq 1 n)) by apply NoDup_seq.
  apply NoDup_cons in Hnd as [Hct Hnd].
  set (P := ⋃ ((λ pf, filter (λ e, lab h e = LStr (face_label h pf)) (list_to_set evs : gset nat)) <$>
                 combinations (vid <$> c) (length (vid <$> c) - 1))).
  assert (HP : ∀ p, p ∈ P ↔ ∃ f j, f `sublist_of` c ∧ length f = k - 1 ∧ F !! j = Some f ∧ evs !! j = Some p).
  { intros p. unfold P. rewrite elem_of_union_list, combinations_fmap, fmap_length, Hcl. split.
    - intros (X & HX & Hp). apply elem_of_list_fmap in HX as (pf & -> & Hpf).
      apply elem_of_list_fmap in Hpf as (f & -> & [Hf Hfl]%combinations_spec).
      apply elem_of_filter in Hp as [Hp1 Hp2%elem_of_list_to_set].
      assert (Hfs : f `sublist_of` seq 1 n) by (by etrans).
      rewrite (si_face_label h F evs f HI Hfs) in Hp1.
      apply (si_by_label h F evs f p HI) in Hp1 as (j & H1 & H2);
        [|by intros ->; cbn in Hfl; lia|done]. eauto 8.
    - intros (f & j & Hf & Hfl & H1 & H2).
      assert (Hfs : f `sublist_of` seq 1 n) by (by etrans).
      eexists. split; [apply elem_of_list_fmap; exists (vid <$> f); split; [done|];
        apply elem_of_list_fmap; exists f; split; [done|]; by apply combinations_spec|].
      apply elem_of_filter. rewrite (si_face_label h F evs f HI Hfs). split.
      + exact (si_lab _ _ _ HI j f p H1 H2).
      + apply elem_of_list_to_set. by eapply elem_of_list_lookup_2. }
  destruct (simplex_alloc h F evs c P HI Hc Hcne HcF) as (h1 & x & Ea & HI').
  - intros d Hd Hsub. destruct (si_sub _ _ _ HI d Hd) as [Hds _].
    pose proof (sublist_set_length _ _ _ Hns Hds Hc Hsub). pose proof (Hle d Hd). lia.
  - intros p (f & j & _ & _ & _ & H2)%HP. by eapply elem_of_list_lookup_2.
  - intros m d y Hd Hy.
    destruct (si_sub _ _ _ HI d (elem_of_list_lookup_2 _ _ _ Hd)) as [Hds Hdne]. split.
    + intros (p & (f & j & Hf & Hfl & H1 & H2)%HP & Hyp).
      assert (Hfc : (list_to_set f : gset nat) ⊂ list_to_set c).
      { apply (sublist_subset_iff (seq 1 n)); [done|done|by etrans|]. split.
        - intros v. rewrite !elem_of_list_to_set. by apply sublist_elem.
        - intros ->. lia. }
      destruct Hyp as [->|Hyp].
      * assert (m = j) as -> by exact (NoDup_lookup _ _ _ _ (fc_nodup _ _ _ (si_fresh _ _ _ HI)) Hy H2).
        assert (d = f) as -> by congruence. done.
      * apply (si_ord _ _ _ HI m j d f y p Hd H1 Hy H2) in Hyp. by etrans.
    + intros Hsub. destruct (facet_exists (seq 1 n) c d Hns Hc Hds Hsub) as (f & Hf & Hfl & Hdf).
      assert (HfF : f ∈ F) by (apply Hall; [by etrans|lia]).
      apply elem_of_list_lookup in HfF as [j Hj].
      assert (Hp : is_Some (evs !! j)).
      { apply lookup_lt_is_Some. rewrite <- (si_len _ _ _ HI). by eapply lookup_lt_Some. }
      destruct Hp as [p Hp]. exists p. split; [apply HP; exists f, j; split_and!; [done|lia|done|done]|].
      destruct (decide (d = f)) as [->|Hdf'].
      * left. assert (m = j) as -> by exact (NoDup_lookup _ _ _ _ (si_nodup _ _ _ HI) Hd Hj). congruence.
      * right. apply (si_ord _ _ _ HI m j d f y p Hd Hj Hy Hp).
        apply (sublist_subset_iff (seq 1 n)); [done|by etrans|done|done].
  - assert (Estep : simplex_face it (h, list_to_set evs) (vid <$> c) = (h1, list_to_set (evs ++ [x]))).
    { unfold simplex_face. rewrite (si_face_label h F evs c HI Hc).
      fold P. rewrite Ea. f_equal. rewrite list_to_set_app_L. clear. apply set_eq. set_solver. }
    rewrite Estep. destruct (IH (F ++ [c]) h1 (evs ++ [x])) as (h' & evs' & H1 & H2); try done.
    + intros d [Hd| ->%elem_of_list_singleton]%elem_of_app; [by apply Hle|lia].
    + intros d Hd Hdl. apply elem_of_app. left. by apply Hall.
    + intros d Hd. destruct (Htodo d) as (G1 & G2 & G3); [by apply elem_of_list_further|].
      split_and!; [done|done|]. intros [HdF| ->%elem_of_list_singleton]%elem_of_app; [done|done].
    + exists h', evs'. split; [done|]. by rewrite <- app_assoc in H2.
Qed.

(** Levels 2..k. *)
Lemma simplex_levels m : ∀ k F h evs,
  1 ≤ k → simplex_inv h F evs →
  (∀ c, c ∈ F ↔ c `sublist_of` seq 1 n ∧ 1 ≤ length c ≤ k) →
  ∃ h' evs' F', foldl (simplex_face it) (h, list_to_set evs) (j ← seq (S k) m; combinations vs j)
      = (h', list_to_set evs') ∧ simplex_inv h' F' evs' ∧
    (∀ c, c ∈ F' ↔ c `sublist_of` seq 1 n ∧ 1 ≤ length c ≤ k + m) ∧
    length F' + sumf (ncomb (seq 1 n)) (S k) = length F + sumf (ncomb (seq 1 n)) (S (k + m)).
Proof using Hit Hvs.
  induction m as [|m IH]; intros k F h evs Hk HI HF.
  { cbn. exists h, evs, F. split_and!; [done|done| |rewrite Nat.add_0_r; cbn; lia].
    intros c. rewrite HF. by rewrite Nat.add_0_r. }
  cbn [seq mbind list_bind]. change (list_bind _ _ ?f ?l) with (l ≫= f). rewrite foldl_app.
  replace (combinations vs (S k)) with ((λ c : list nat, vid <$> c) <$> combinations (seq 1 n) (S k))
    by (rewrite vs_vid at 1; by rewrite combinations_fmap).
  destruct (simplex_inner (S k) (combinations (seq 1 n) (S k)) F h evs) as (h1 & evs1 & E1 & HI1).
  - lia.
  - done.
  - intros c Hc. apply HF in Hc. lia.
  - intros c Hc Hcl. apply HF. split; [done|lia].
  - apply combinations_nodup, NoDup_seq.
  - intros c [Hc Hcl]%combinations_spec. split_and!; [done|done|]. intros H. apply HF in H. lia.
  - rewrite E1. destruct (IH (S k) (F ++ combinations (seq 1 n) (S k)) h1 evs1) as (h' & evs' & F' & E' & HI' & HF' & Hcount).
    + lia.
    + done.
    + intros c. rewrite elem_of_app, HF, combinations_spec. lia || (split; [intros [[? ?]|[? ?]]; (split; [done|lia])|]).
      intros [H1 H2]. destruct (decide (length c = S k)); [by right|left; split; [done|lia]].
    + exists h', evs', F'. split_and!; [done|done| |].
      * intros c. rewrite HF'. replace (S k + m) with (k + S m) by lia. done.
      * replace (S (k + S m)) with (S (S k + m)) by lia.
        rewrite app_length in Hcount.
        change (sumf (ncomb (seq 1 n)) (S (S k))) with
          (sumf (ncomb (seq 1 n)) (S k) + length (combinations (seq 1 n) (S k))) in Hcount. lia.
Qed.
End simplex.

Lemma sublist_full {A} (c l : list A) : c `sublist_of` l → length l ≤ length c → c = l.
Proof.
  induction 1 as [|x c l Hs IH|x c l Hs IH]; cbn; intros Hl; [done|f_equal; apply IH; lia|].
  apply sublist_length in Hs. lia.
Qed.

Lemma NewSimplex_spec it h d central :
  iter_ok it → order_inv h → link_inv h →
  let n := Z.to_nat (d + 1) in
  ∃ h' evs F vs, NewSimplex it d central h = (h', Ok (list_to_set evs)) ∧
    simplex_inv h n vs h' F evs ∧
    (∀ c, c ∈ F ↔ c `sublist_of` seq 1 n ∧ 1 ≤ length c ∧
       ((length c ≤ Nat.max 1 (Z.to_nat d)) ∨ (central = true ∧ (0 < d)%Z))) ∧
    ((0 < d)%Z → length F + (if central then 1 else 2) = 2 ^ n).
Proof.
  intros Hit HO HL n. unfold NewSimplex. fold n.
  set (args := (λ i, (LStr (str_of_nat i), ∅)) <$> seq 1 n).
  destruct (alloc_list_spec it h args h [] Hit (fresh_causet_nil h HO HL)) as (IF & IL & ID & IN & IR & IK).
  { intros l P p Hin Hp. unfold args in Hin. apply elem_of_list_fmap in Hin as (? & [= -> ->] & _).
    by apply elem_of_empty in Hp. }
  destruct (alloc_list it args h) as [h0 vs] eqn:El. cbn [fst snd app] in *.
  assert (Hvs : length vs = n) by (rewrite IL; unfold args; by rewrite fmap_length, seq_length).
  assert (Hpl : ∀ i x, vs !! i = Some x → lab h0 x = LStr (str_of_nat (S i)) ∧ prec h0 x = ∅).
  { intros i x Hi. pose proof (lookup_lt_Some _ _ _ Hi) as Hlt. rewrite Hvs in Hlt.
    destruct (IK i x (LStr (str_of_nat (1 + i))) ∅ Hi) as (-> & _ & Hp).
    { unfold args. by rewrite list_lookup_fmap, lookup_seq_lt. }
    split; [done|]. apply set_eq. intros y. rewrite Hp. split; [|set_solver].
    intros (p & Hp' & _). by apply elem_of_empty in Hp'. }
  set (F0 := (λ i, [i]) <$> seq 1 n).
  assert (HF0 : ∀ k c, F0 !! k = Some c ↔ k < n ∧ c = [S k]).
  { intros k c. unfold F0. rewrite list_lookup_fmap. destruct (decide (k < n)) as [Hk|Hk].
    - rewrite lookup_seq_lt by done. cbn. naive_solver.
    - rewrite lookup_seq_ge by lia. cbn. naive_solver lia. }
  assert (HI0 : simplex_inv h n vs h0 F0 vs).
  { split.
    - done.
    - unfold F0. by rewrite fmap_length, seq_length.
    - unfold F0. apply NoDup_fmap_2; [by intros ?? [= ->]|apply NoDup_seq].
    - intros c [k [Hk ->]%HF0]%elem_of_list_lookup. split; [|done].
      apply sublist_cons_l. exists (seq 1 k), (seq (2 + k) (n - 1 - k)). split; [|apply sublist_nil_l].
      replace n with (k + S (n - 1 - k)) at 1 by lia. rewrite seq_app. done.
    - intros k c x [Hk ->]%HF0 Hx. destruct (Hpl k x Hx) as [-> _]. done.
    - intros i Hi. unfold vid. assert (Hin : is_Some (vs !! (i - 1))) by (apply lookup_lt_is_Some; lia).
      destruct Hin as [x Hx]. rewrite (list_lookup_total_correct _ _ _ Hx).
      destruct (Hpl _ _ Hx) as [-> _]. replace (S (i - 1)) with i by lia.
      split; [done|by eapply elem_of_list_lookup_2].
    - intros i j c d' x y [Hi ->]%HF0 [Hj ->]%HF0 Hx Hy. unfold before.
      destruct (Hpl j y Hy) as [_ ->]. split; [set_solver|]. intros Hs. exfalso.
      apply subset_size in Hs. cbn in Hs. rewrite !union_empty_r_L, !size_singleton in Hs. lia. }
  destruct (simplex_levels it Hit h n vs Hvs (Z.to_nat (d - 1)) 1 F0 h0 vs) as
    (h1 & evs & F & E1 & HI & HF & Hcount); [lia|done| |].
  { intros c. split.
    - intros Hc. destruct (si_sub _ _ _ _ _ _ HI0 c Hc) as [Hs Hne]. split; [done|].
      apply elem_of_list_lookup in Hc as [k [_ ->]%HF0]. cbn. lia.
    - intros [Hs Hl]. destruct c as [|i [|]]; cbn in Hl; [lia| |lia].
      unfold F0. apply elem_of_list_fmap. exists i. split; [done|]. eapply sublist_elem; [done|].
      apply elem_of_list_here. }
  rewrite E1.
  assert (Hc0 : (0 < d)%Z → length F + 2 = 2 ^ n).
  { intros Hd. assert (Hn : n = S (Z.to_nat d)) by lia.
    replace (1 + Z.to_nat (d - 1)) with (Z.to_nat d) in Hcount by lia.
    rewrite <- Hn in Hcount. unfold F0 in Hcount. rewrite fmap_length, seq_length in Hcount.
    pose proof (subsets_count (seq 1 n) (S n)) as Hs. rewrite seq_length in Hs.
    specialize (Hs ltac:(lia)). cbn [sumf] in Hs, Hcount.
    pose proof (ncomb_full (seq 1 n)) as H1. rewrite seq_length in H1.
    rewrite ncomb_0 in Hcount. rewrite ncomb_1, seq_length in Hcount. lia. }
  destruct (central && bool_decide (0 < d)%Z) eqn:Ec.
  - apply andb_true_iff in Ec as [-> Hd%bool_decide_eq_true].
    assert (Hn : n = S (Z.to_nat d)) by lia.
    assert (Hns : NoDup (seq 1 n)) by apply NoDup_seq.
    assert (Hfl : face_label h1 vs = flabel (seq 1 n)).
    { rewrite <- (si_face_label h n vs Hvs h1 F evs (seq 1 n) HI) by done. by rewrite <- (vs_vid n vs Hvs). }
    rewrite Hfl.
    destruct (simplex_alloc it Hit h n vs Hvs h1 F evs (seq 1 n) (list_to_set evs) HI) as (h2 & x & Ea & HI2).
    + done.
    + by rewrite Hn.
    + intros H. apply HF in H as [_ H]. rewrite seq_length in H. lia.
    + intros c Hc Hs. destruct (si_sub _ _ _ _ _ _ HI c Hc) as [Hcs _].
      pose proof (sublist_set_length _ _ _ Hns Hcs (reflexivity _) Hs) as Hlt.
      apply sublist_length in Hcs. lia.
    + intros p. by rewrite elem_of_list_to_set.
    + intros k c y Hc Hy. pose proof (elem_of_list_lookup_2 _ _ _ Hc) as HcF.
      destruct (si_sub _ _ _ _ _ _ HI c HcF) as [Hcs _]. apply HF in HcF as [_ HcF]. split.
      * intros _. apply (sublist_subset_iff (seq 1 n)); [done|done|done|]. split.
        -- intros v. rewrite !elem_of_list_to_set. by apply sublist_elem.
        -- intros ->. rewrite seq_length in HcF. lia.
      * intros _. exists y. split; [|by left]. apply elem_of_list_to_set. by eapply elem_of_list_lookup_2.
    + rewrite Ea. exists h2, (evs ++ [x]), (F ++ [seq 1 n]), vs. split_and!; [|done| |].
      * f_equal. replace ({[x]} ∪ list_to_set evs) with (list_to_set (evs ++ [x]) : gset nat).
        -- by eapply fresh_causet_ok, si_fresh.
        -- rewrite list_to_set_app_L. clear. apply set_eq. set_solver.
      * intros c. rewrite elem_of_app, HF, elem_of_list_singleton. split.
        -- intros [[H1 H2]| ->]; [split_and!; [done|lia|left; lia]|].
           split_and!; [done|rewrite seq_length; lia|by right].
        -- intros (H1 & H2 & _). destruct (decide (length c ≤ Z.to_nat d)); [left; split; [done|lia]|].
           right. apply sublist_full; [done|]. rewrite seq_length. lia.
      * intros _. rewrite app_length. cbn. specialize (Hc0 Hd). lia.
  - exists h1, evs, F, vs. split_and!; [|done| |].
    + f_equal. by eapply fresh_causet_ok, si_fresh.
    + intros c. rewrite HF. split.
      * intros [H1 H2]. split_and!; [done|lia|left; lia].
      * intros (H1 & H2 & [H3|[-> H3]]); [split; [done|lia]|].
        rewrite bool_decide_eq_true_2 in Ec by done. done.
    + intros Hd. destruct central; [|by apply Hc0].
      rewrite bool_decide_eq_true_2 in Ec by done. done.
Qed.
