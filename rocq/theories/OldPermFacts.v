(** Facts about the older functions of causetpermutations.py. *)
From Verif Require Import Base Spec SpecPerm EventModel EventFacts History HistoryFacts PathFacts
  RankFacts EventProps CausetModel CausetFacts IntervalFacts LayerFacts DistModel DistFacts
  OldPermModel.

(** * The generators *)
Definition picks (fresh : list yields) (ps : list (list nat)) : Prop :=
  Forall2 (λ y p, p ∈ fst y) fresh ps.
Definition rest_of (fresh its : list yields) : Prop :=
  Forall2 (λ y y' : yields, ∀ p, p ∈ fst y' → p ∈ fst y) fresh its.

Lemma gen_start_ok fresh ps ys : gen_start fresh = Ok (ps, ys) → picks fresh ps ∧ rest_of fresh ys.
Proof.
  revert ps ys. induction fresh as [|y fresh IH]; intros ps ys; cbn [gen_start].
  { intros [= <- <-]. split; constructor. }
  destruct y as [[|p qs] [e|]]; cbn [gen_next res_bind]; try done.
  - destruct (gen_start fresh) as [[ps' ys']|]; [|done]. cbn [res_bind]. intros [= <- <-].
    destruct (IH ps' ys' eq_refl) as [H1 H2]. split; constructor; try done; cbn; [by left|intros ? ?; by right].
  - destruct (gen_start fresh) as [[ps' ys']|]; [|done]. cbn [res_bind]. intros [= <- <-].
    destruct (IH ps' ys' eq_refl) as [H1 H2]. split; constructor; try done; cbn; [by left|intros ? ?; by right].
Qed.
Lemma gen_advance_ok fresh cur its ps ys :
  picks fresh cur → rest_of fresh its → gen_advance fresh cur its = Ok (Some (ps, ys)) →
  picks fresh ps ∧ rest_of fresh ys.
Proof.
  revert cur its ps ys. induction fresh as [|y fresh IH]; intros cur its ps ys Hc Hi;
    [by destruct cur|].
  inversion Hc as [|y0 c fresh0 cur' Hyc Hc' E1 E2]; subst. inversion Hi as [|y0 y' fresh0 its' Hyi Hi' E1 E2]; subst.
  cbn [gen_advance]. destruct (gen_advance fresh cur' its') as [[[ps' ys']|]|] eqn:E; cbn [res_bind]; [| |done].
  - intros [= <- <-]. destruct (IH _ _ _ _ Hc' Hi' E). split; by constructor.
  - destruct y' as [[|q qs] o].
    + destruct o; done.
    + destruct (gen_start fresh) as [[ps' ys']|] eqn:Es; [|done]. cbn [res_bind]. intros [= <- <-].
      apply gen_start_ok in Es as [H1 H2]. split; constructor; try done.
      * apply Hyi. cbn. by left.
      * intros p Hp. apply Hyi. cbn in *. by right.
Qed.

Definition lp_inv (fresh : list yields) (st : lp_state) : Prop :=
  match st with LpNew => True | LpAt cur its => picks fresh cur ∧ rest_of fresh its end.
Lemma lp_next_ok fresh st layers st' :
  lp_inv fresh st → lp_next fresh st = Ok (Some (layers, st')) →
  picks fresh layers ∧ lp_inv fresh st'.
Proof.
  destruct st as [|cur its]; cbn [lp_next lp_inv].
  - intros _. destruct (gen_start fresh) as [[ps ys]|] eqn:E; [|done]. cbn [res_map]. intros [= <- <-].
    apply gen_start_ok in E as [H1 H2]. done.
  - intros [Hc Hi]. destruct fresh as [|y fresh]; [done|].
    destruct (gen_advance (y :: fresh) cur its) as [[[ps ys]|]|] eqn:E; cbn [res_map]; [|done|done].
    intros [= <- <-]. apply gen_advance_ok in E as [H1 H2]; done.
Qed.

Section loop.
Context (it : oracle) (h : heap) (S : gset nat).

(** What permuted_old returns comes from one of the layer permutations. *)
Lemma po_loop_ok n fresh st best r :
  lp_inv fresh st →
  (∀ L P d, best = Some (L, P, d) → ∃ layers, picks fresh layers ∧
     try_layers it h S layers = Ok (Some (L, P, d))) →
  po_loop it n h S fresh st best = Ok r →
  r = ([], []) ∨ ∃ layers d, picks fresh layers ∧
    try_layers it h S layers = Ok (Some (r.1, r.2, d)).
Proof.
  assert (Hres : ∀ best r, (∀ L P d, best = Some (L, P, d) → ∃ layers, picks fresh layers ∧
       try_layers it h S layers = Ok (Some (L, P, d))) → best_result best = r →
     r = ([], []) ∨ ∃ layers d, picks fresh layers ∧ try_layers it h S layers = Ok (Some (r.1, r.2, d))).
  { intros [[[L P] d]|] r' Hb <-; [right|by left]. destruct (Hb L P d eq_refl) as (layers & H1 & H2). eauto. }
  revert st best. induction n as [|n IH]; intros st best Hst Hbest; cbn [po_loop];
    destruct (lp_next fresh st) as [[[layers st']|]|] eqn:En; cbn [res_bind]; try done;
    try (intros [= <-]; by eapply Hres).
  - destruct best as [[[L P] d]|]; [|done]. intros [= <-]. by eapply Hres.
  - apply lp_next_ok in En as [Hpk Hst']; [|done].
    destruct (try_layers it h S layers) as [[[[L P] d]|]|] eqn:Et; cbn [res_bind]; [| |done].
    + set (better := match best with None => true | Some (_, _, d') => bool_decide (d < d') end).
      set (best' := if better then Some (L, P, d) else best).
      assert (Hb' : ∀ L P d, best' = Some (L, P, d) → ∃ layers, picks fresh layers ∧
         try_layers it h S layers = Ok (Some (L, P, d))).
      { intros L' P' d'. unfold best'. destruct better; [|apply Hbest]. intros [= <- <- <-]. eauto. }
      clearbody best'. destruct best' as [[[L' P'] [|d']]|]; [|by apply IH|by apply IH].
      intros [= <-]. by eapply Hres.
    + by apply IH.
Qed.

(** * One pass *)
Lemma for_res_inv {A T : Type} (f : T → A → res T) (I : T → Prop) l s r :
  I s → (∀ s x s', x ∈ l → I s → f s x = Ok s' → I s') → for_res f l s = Ok r → I r.
Proof.
  revert s. induction l as [|x l IH]; intros s Hs Hf; cbn [for_res]; [by intros [= <-]|].
  destruct (f s x) as [s'|] eqn:E; cbn [res_bind]; [|done]. apply IH.
  - eapply Hf; [by left|done|done].
  - intros s1 y s2 Hy. apply Hf. by right.
Qed.
Lemma add_all_ok exts ext bs r : add_all exts ext bs = Ok r →
  ∀ x, x ∈ r → x ∈ ext ∨ x ∈ bs ∨ ∃ b s, b ∈ bs ∧ exts !! b = Some s ∧ x ∈ s.
Proof.
  revert ext. induction bs as [|b bs IH]; intros ext; cbn [add_all]; [intros [= <-]; by left|].
  destruct (exts !! b) as [s|] eqn:Eb; [|done]. intros H x Hx.
  destruct (IH _ H x Hx) as [Hin|[Hin|(b' & s' & Hb' & Hs' & Hxs)]].
  - apply elem_of_union in Hin as [[?|Hxb%elem_of_singleton]%elem_of_union|?]; [by left|subst x; right; left; by left|].
    right; right. exists b, s. split_and!; [by left|done|done].
  - right; left; by right.
  - right; right. exists b', s'. split_and!; [by right|done|done].
Qed.
Lemma between_sub p l x : x ∈ between p l → x ∈ l.
Proof.
  unfold between. destruct (first_last p l) as [[i j]|]; [|by intros ?%elem_of_nil].
  intros Hx. rewrite <- (take_drop i l). apply elem_of_app. right.
  rewrite <- (take_drop (Datatypes.S j - i) (drop i l)). apply elem_of_app. by left.
Qed.

Context (f : nat → nat) (Hf : ∀ a b, before h a b → f a < f b).

(** The extended pasts lie in lower layers. *)
Definition pasts_low (extP : gmap nat (gset nat)) : Prop :=
  ∀ b s, extP !! b = Some s → ∀ x, x ∈ s → x ∈ S ∧ f x < f b.
Lemma ext_past_of_low extF below st b st' :
  (∀ l a, l ∈ below → a ∈ l → a ∈ S ∧ f a < f b) →
  pasts_low st.1.1 → ext_past_of h S extF below st b = Ok st' → pasts_low st'.1.1.
Proof using Hf.
  intros Hbelow. destruct st as [[extP rgt] first]. cbn [fst]. intros Hlow. unfold ext_past_of.
  destruct (for_res _ below _) as [[s rgt']|] eqn:E; cbn [res_map]; [|done]. intros [= <-]. cbn [fst].
  assert (Hs : ∀ x, x ∈ s → x ∈ S ∧ f x < f b).
  { apply (for_res_inv (ext_past_layer h extF extP first b)
      (λ st : gset nat * gset nat, ∀ x, x ∈ st.1 → x ∈ S ∧ f x < f b) below (Past h b ∩ S, rgt) (s, rgt'));
      [| |done].
    - cbn. intros x [Hx1 Hx2]%elem_of_intersection. split; [done|]. by apply Hf.
    - intros [s1 r1] l [s2 r2] Hl H1. unfold ext_past_layer. cbn [fst].
      destruct (add_all extP s1 _) as [s3|] eqn:Ea; cbn [res_bind]; [|done].
      assert (H3 : ∀ x, x ∈ s3 → x ∈ S ∧ f x < f b).
      { intros x Hx. destruct (add_all_ok _ _ _ _ Ea x Hx) as [?|[Hb%between_sub|(a & sa & Ha%between_sub & Esa & Hxa)]].
        - by apply H1.
        - by apply (Hbelow l).
        - destruct (Hlow a sa Esa x Hxa) as [? ?]. destruct (Hbelow l a Hl Ha). split; [done|lia]. }
      destruct (first && _).
      + destruct (add_all extF r1 _); cbn [res_map]; [|done]. by intros [= <- <-].
      + by intros [= <- <-]. }
  intros b' s' Hb'. apply lookup_insert_Some in Hb' as [[<- <-]|[_ Hb']]; [done|by apply (Hlow b')].
Qed.

(** The lists L_this and P_this while events are placed; [todo] can still be placed. *)
Definition placed (done : list nat) (L : list (option nat)) (P : list nat) : Prop :=
  length L = size S ∧ length P = size S ∧
  (∀ v e, L !! v = Some (Some e) → e ∈ done ∧ e ∈ S) ∧
  (∀ v u, P !! v = Some u → u ≤ size S ∧ (L !! v = Some None → u = 0)).
Definition placed_once (L : list (option nat)) : Prop :=
  ∀ v w e, L !! v = Some (Some e) → L !! w = Some (Some e) → v = w.

Lemma place_event_ok extF extP L P rgt e L' P' rgt' dn :
  pasts_low extP → e ∈ S → placed dn L P →
  place_event S extF extP (L, P, rgt) e = Ok (L', P', rgt') →
  placed (e :: dn) L' P' ∧ (placed_once L → e ∉ dn → placed_once L').
Proof.
  intros Hlow He (HL & HP & Hin & Hu). unfold place_event.
  destruct (extP !! e) as [p|] eqn:Ep; [|done]. destruct (extF !! e) as [fu|]; [|done].
  set (cone := p ∪ fu ∪ {[e]}). set (r1 := rgt ∖ cone). set (lft := S ∖ r1 ∖ cone).
  destruct (decide (size p + size r1 < length L)) as [Hv|Hv]; [|done]. intros [= <- <- _].
  set (v := size p + size r1) in *.
  assert (Hp : ∀ x, x ∈ p → x ∈ S ∧ f x < f e) by (by apply Hlow).
  assert (Hbound : size p + size lft + 1 ≤ size S).
  { assert (Hd : p ## lft) by (intros x Hx1 Hx2; unfold lft, cone in Hx2; set_solver).
    assert (Hd2 : {[e]} ## p ∪ lft).
    { intros x ->%elem_of_singleton [Hx|Hx]%elem_of_union; [apply Hp in Hx as [_ Hx]; lia|].
      unfold lft, cone in Hx. set_solver. }
    assert (Hsz : size ({[e]} ∪ (p ∪ lft)) ≤ size S).
    { apply subseteq_size. intros x [Hx%elem_of_singleton|[Hx|Hx]%elem_of_union]%elem_of_union; [by subst x|by apply Hp|].
      unfold lft in Hx. set_solver. }
    rewrite size_union, size_singleton, size_union in Hsz by done. lia. }
  split; [split_and!|].
  - by rewrite insert_length.
  - by rewrite insert_length.
  - intros w e' Hw. destruct (decide (w = v)) as [->|Hne].
    + rewrite list_lookup_insert in Hw by done. injection Hw as <-. split; [by left|done].
    + rewrite list_lookup_insert_ne in Hw by done. destruct (Hin w e' Hw). split; [by right|done].
  - intros w u Hw. destruct (decide (w = v)) as [->|Hne].
    + rewrite list_lookup_insert in Hw by (by rewrite HP, <- HL). injection Hw as <-.
      split; [lia|]. by rewrite list_lookup_insert.
    + rewrite list_lookup_insert_ne in Hw by done. rewrite list_lookup_insert_ne by done. by apply Hu.
  - intros Honce Hnew w1 w2 e' H1 H2.
    destruct (decide (w1 = v)) as [->|Hn1]; destruct (decide (w2 = v)) as [->|Hn2]; [done| | |].
    + rewrite list_lookup_insert in H1 by done. injection H1 as <-.
      rewrite list_lookup_insert_ne in H2 by done. by destruct (Hin _ _ H2).
    + rewrite list_lookup_insert in H2 by done. injection H2 as <-.
      rewrite list_lookup_insert_ne in H1 by done. by destruct (Hin _ _ H1).
    + rewrite list_lookup_insert_ne in H1, H2 by done. by apply (Honce w1 w2 e').
Qed.

Lemma place_layer_ok extF extP layer : ∀ L P rgt dn L' P' rgt',
  pasts_low extP → (∀ e, e ∈ layer → e ∈ S) → placed dn L P →
  for_res (place_event S extF extP) layer (L, P, rgt) = Ok (L', P', rgt') →
  placed (reverse layer ++ dn) L' P' ∧
  (placed_once L → NoDup layer → (∀ e, e ∈ layer → e ∉ dn) → placed_once L').
Proof.
  induction layer as [|e layer IH]; intros L P rgt dn L' P' rgt' Hlow HS Hpl; cbn [for_res].
  { intros [= <- <- <-]. done. }
  destruct (place_event S extF extP (L, P, rgt) e) as [[[L1 P1] r1]|] eqn:E; cbn [res_bind]; [|done].
  intros Hrest. apply (place_event_ok _ _ _ _ _ _ _ _ _ dn) in E as [Hpl1 Honce1]; [|done|apply HS; by left|done].
  destruct (IH L1 P1 r1 (e :: dn) L' P' rgt' Hlow) as [Hpl2 Honce2]; [intros ? ?; apply HS; by right|done|done|].
  split.
  - by rewrite reverse_cons, <- (assoc_L (++)).
  - intros H0 [Hn1 Hn2]%NoDup_cons Hnew. apply Honce2; [|done|].
    + apply Honce1; [done|]. apply Hnew. by left.
    + intros x Hx [->|Hin]%elem_of_cons; [done|]. apply (Hnew x); [by right|done].
Qed.

Lemma place_layers_ok extF layers : ∀ below extP L P dn L' P' k,
  pasts_low extP →
  (∀ l a, l ∈ below → a ∈ l → a ∈ S ∧ f a < k) →
  (∀ i l a, layers !! i = Some l → a ∈ l → a ∈ S ∧ f a = k + i) →
  placed dn L P → (∀ e, e ∈ dn → f e < k) →
  place_layers h S extF layers below extP L P = Ok (L', P') →
  (∃ dn', placed dn' L' P') ∧
  (placed_once L → (∀ l, l ∈ layers → NoDup l) → placed_once L').
Proof using Hf.
  induction layers as [|layer layers IH]; intros below extP L P dn L' P' k Hlow Hbelow Hlay Hpl Hdn;
    cbn [place_layers].
  { intros [= <- <-]. eauto. }
  destruct (for_res (ext_past_of h S extF below) layer (extP, ∅, true)) as [[[extP' rgt] fl]|] eqn:E1;
    cbn [res_bind]; [|done].
  assert (Hlow' : pasts_low extP').
  { apply (for_res_inv (ext_past_of h S extF below) (λ st : gmap nat (gset nat) * gset nat * bool, pasts_low st.1.1) layer (extP, ∅, true)
      (extP', rgt, fl)); [done| |done].
    intros st x st' Hx Hst Est. eapply ext_past_of_low; [|done|done].
    intros l a Hl Ha. destruct (Hlay 0 layer x eq_refl Hx) as [_ Hfx]. destruct (Hbelow l a Hl Ha). split; [done|lia]. }
  destruct (for_res (place_event S extF extP') layer (L, P, rgt)) as [[[L1 P1] r1]|] eqn:E2; cbn [res_bind]; [|done].
  apply (place_layer_ok _ _ _ _ _ _ dn) in E2 as [Hpl1 Honce1];
    [|done|intros e He; by apply (Hlay 0 layer e)|done].
  intros Hrest. destruct (IH (layer :: below) extP' L1 P1 (reverse layer ++ dn) L' P' (Datatypes.S k)) as [H1 H2].
  - done.
  - intros l a [->|Hl]%elem_of_cons Ha.
    + destruct (Hlay 0 layer a eq_refl Ha). split; [done|lia].
    + destruct (Hbelow l a Hl Ha). split; [done|lia].
  - intros i l a Hi Ha. destruct (Hlay (Datatypes.S i) l a Hi Ha). split; [done|lia].
  - done.
  - intros e [He%elem_of_reverse|He]%elem_of_app.
    + rewrite reverse_involutive in He. destruct (Hlay 0 layer e eq_refl He). lia.
    + specialize (Hdn e He). lia.
  - done.
  - split; [done|]. intros H0 Hnd. apply H2.
    + apply Honce1; [done|apply Hnd; by left|]. intros e He Hin. specialize (Hdn e Hin).
      destruct (Hlay 0 layer e eq_refl He). lia.
    + intros l Hl. apply Hnd. by right.
Qed.

Lemma try_layers_ok layers L P d :
  (∀ i l a, layers !! i = Some l → a ∈ l → a ∈ S ∧ f a = i) →
  try_layers it h S layers = Ok (Some (L, P, d)) →
  ∃ l, L = Some <$> l ∧ length l = size S ∧ length P = size S ∧
    (∀ e, e ∈ l → e ∈ S) ∧ (∀ u, u ∈ P → 1 ≤ u ≤ size S) ∧
    ((∀ p, p ∈ layers → NoDup p) → NoDup l).
Proof using Hf.
  intros Hlay. unfold try_layers. destruct (ext_futures h S layers) as [extF|]; [|done]. cbn [res_bind].
  destruct (place_layers _ _ _ _ _ _ _ _) as [[L1 P1]|[]] eqn:E; try done.
  destruct (decide (0 ∈ P1)) as [|Hz]; [done|].
  destruct (extended_causals it h S extF) as [n|]; [|done]. cbn [res_map]. intros [= <- <- <-].
  destruct (place_layers_ok extF layers [] ∅ (replicate (size S) None) (replicate (size S) 0) [] L1 P1 0)
    as [(dn & HL & HP & Hin & Hu) Honce].
  - intros b s Hb. by rewrite lookup_empty in Hb.
  - intros l a Hl. by apply elem_of_nil in Hl.
  - done.
  - split_and!.
    + apply replicate_length.
    + apply replicate_length.
    + intros v e [? _]%lookup_replicate. done.
    + intros v u [-> _]%lookup_replicate. split; [lia|done].
  - intros e He. by apply elem_of_nil in He.
  - done.
  - assert (Hall : ∀ v x, L1 !! v = Some x → x ≠ None).
    { intros v x Hv ->. assert (Hvl : v < length P1) by (rewrite HP, <- HL; by eapply lookup_lt_Some).
      apply lookup_lt_is_Some in Hvl as [u Hvu]. destruct (Hu v u Hvu) as [_ H0]. specialize (H0 Hv) as ->.
      apply Hz. by eapply elem_of_list_lookup_2. }
    assert (∃ l, L1 = Some <$> l) as [l ->].
    { clear -Hall. induction L1 as [|x L1 IH]; [by exists []|].
      destruct IH as [l ->]; [intros v y Hv; by apply (Hall (Datatypes.S v))|].
      destruct x as [x|]; [|by destruct (Hall 0 None)]. by exists (x :: l). }
    exists l. split_and!.
    + done.
    + by rewrite <- HL, fmap_length.
    + done.
    + intros e [v Hv]%elem_of_list_lookup. apply (Hin v e). by rewrite list_lookup_fmap, Hv.
    + intros u [v Hv]%elem_of_list_lookup. destruct (Hu v u Hv) as [Hle _]. split; [|done].
      destruct u; [|lia]. destruct Hz. by eapply elem_of_list_lookup_2.
    + intros Hnd. apply NoDup_alt. intros v w e Hv Hw. apply Honce with e.
      * intros v' w' e' [? _]%lookup_replicate. done.
      * done.
      * by rewrite list_lookup_fmap, Hv.
      * by rewrite list_lookup_fmap, Hw.
Qed.
End loop.
