(** Theorems about /repo/colorschemes.py: C59. *)
From Verif Require Import Base ColorModel.
From Coq Require Import Ascii.
#[local] Open Scope string_scope.

(** ** Specification *)
(** [scheme_of g name]: the scheme meant by the optional argument schemeName. *)
Definition scheme_of (g : scheme) (name : option string) (cs : scheme) : Prop :=
  match name with None => cs = g | Some n => (n, cs) ∈ ColorSchemes end.
(** What a colour value stands for: 'cs:' followed by a name of the scheme stands for the colour
    of that name, everything else for itself. *)
Definition stands_for (cs : scheme) (s t : string) : Prop :=
  (∃ n, s = "cs:" +:+ n ∧ (n, t) ∈ cs) ∨ ((¬ ∃ n, s = "cs:" +:+ n) ∧ t = s).
(** A 'cs:' value without a colour in the scheme. *)
Definition undefined (cs : scheme) (s : string) : Prop := ∃ n, s = "cs:" +:+ n ∧ ∀ t, (n, t) ∉ cs.
Definition val_stands_for (cs : scheme) (v w : pyval) : Prop :=
  match v, w with
  | VStr s, VStr t => stands_for cs s t
  | VStr _, _ => False
  | _, _ => w = v
  end.
Definition val_undefined (cs : scheme) (v : pyval) : Prop :=
  match v with VStr s => undefined cs s | _ => False end.

(** ** Proofs *)
Lemma cs_rest_Some s n : cs_rest s = Some n ↔ s = "cs:" +:+ n.
Proof.
  split.
  - destruct s as [|a [|b [|c r]]]; cbn; try done. destruct (decide _) as [(-> & -> & ->)|]; [|done]. by intros [= ->].
  - intros ->. done.
Qed.
Lemma cs_rest_None s : cs_rest s = None ↔ ¬ ∃ n, s = "cs:" +:+ n.
Proof.
  split.
  - intros H [n Hn]. apply cs_rest_Some in Hn. congruence.
  - intros H. destruct (cs_rest s) as [n|] eqn:E; [|done]. exfalso. apply H. exists n. by apply cs_rest_Some.
Qed.
Lemma dget_Some {V} (d : dict V) k v : NoDup d.*1 → dget d k = Some v ↔ (k, v) ∈ d.
Proof.
  induction d as [|[k' w] d IH]; cbn; intros Hnd.
  - split; [done|]. intros H. by apply elem_of_nil in H.
  - apply NoDup_cons in Hnd as [Hn Hnd]. rewrite elem_of_cons. destruct (decide (k' = k)) as [->|Hk].
    + split; [intros [= ->]; by left|]. intros [[= ->]|H]; [done|]. exfalso. apply Hn. apply elem_of_list_fmap. by exists (k, v).
    + rewrite IH by done. split; [by right|]. intros [[= <- <-]|H]; [done|done].
Qed.
Lemma dget_None {V} (d : dict V) k : dget d k = None ↔ ∀ v, (k, v) ∉ d.
Proof.
  induction d as [|[k' w] d IH]; cbn.
  - split; [|done]. intros _ v H. by apply elem_of_nil in H.
  - destruct (decide (k' = k)) as [->|Hk].
    + split; [done|]. intros H. exfalso. apply (H w). by left.
    + rewrite IH. split.
      * intros H v [[= <- <-]|Hv]%elem_of_cons; [done|]. by apply (H v).
      * intros H v Hv. apply (H v). by right.
Qed.
(** The three schemes: distinct names, and in each scheme distinct colour names. *)
Lemma schemes_wf : NoDup ColorSchemes.*1 ∧ ∀ n cs, (n, cs) ∈ ColorSchemes → NoDup cs.*1.
Proof.
  split; [by apply (bool_decide_unpack _); vm_compute|].
  intros n cs H. unfold ColorSchemes in H. rewrite !elem_of_cons in H.
  destruct H as [[= -> ->]|[[= -> ->]|[[= -> ->]|H]]]; [apply (bool_decide_unpack _); by vm_compute..|].
  by apply elem_of_nil in H.
Qed.
Lemma get_scheme_spec g name cs : get_scheme g name = Ok cs ↔ scheme_of g name cs.
Proof.
  destruct name as [n|]; cbn.
  - unfold pickColorScheme. destruct schemes_wf as [Hw _]. rewrite <- (dget_Some ColorSchemes n cs Hw).
    destruct (dget ColorSchemes n); split; congruence.
  - split; congruence.
Qed.
Lemma get_scheme_err g name e : get_scheme g name = Err e → e = ValueError ∧ ¬ ∃ cs, scheme_of g name cs.
Proof.
  intros H. split.
  - destruct name as [n|]; [|done]. cbn in H. unfold pickColorScheme in H. destruct (dget _ n); congruence.
  - intros [cs Hcs]. apply get_scheme_spec in Hcs. congruence.
Qed.

(** getColor *)
Theorem C59_getColor (g : scheme) (color : string) (name : option string) : NoDup g.*1 →
  (∀ cs, scheme_of g name cs →
     (∀ t, getColor g color name = Ok t ↔ stands_for cs color t) ∧
     (getColor g color name = Err KeyError ↔ undefined cs color)) ∧
  ((¬ ∃ cs, scheme_of g name cs) → getColor g color name = Err ValueError).
Proof.
  intros Hg. split.
  - intros cs Hcs. assert (Hnd : NoDup cs.*1).
    { destruct name as [n|]; cbn in Hcs; [by apply (proj2 schemes_wf n)|by subst]. }
    apply get_scheme_spec in Hcs. unfold getColor. rewrite Hcs. cbn [res_bind].
    unfold stands_for, undefined. destruct (cs_rest color) as [n|] eqn:E.
    + pose proof (proj1 (cs_rest_Some _ _) E) as Hn. assert (Huniq : ∀ m, color = "cs:" +:+ m → m = n) by (intros m Hm; apply cs_rest_Some in Hm; congruence).
      destruct (dget cs n) as [c|] eqn:Ec.
      * assert (Ec' := proj1 (dget_Some cs n c Hnd) Ec). split.
        -- intros t. split.
           ++ intros [= <-]. left. by exists n.
           ++ intros [(m & Hm & Hin)|[H _]]; [|exfalso; apply H; by exists n].
              rewrite (Huniq m Hm) in Hin. apply (dget_Some cs n t Hnd) in Hin. congruence.
        -- split; [done|]. intros (m & Hm & Hin). exfalso. apply (Hin c). by rewrite (Huniq m Hm).
      * assert (Ec' := proj1 (dget_None cs n) Ec). split.
        -- intros t. split; [done|]. intros [(m & Hm & Hin)|[H _]]; [|exfalso; apply H; by exists n].
           exfalso. apply (Ec' t). by rewrite <- (Huniq m Hm).
        -- split; [|done]. intros _. exists n. done.
    + pose proof (proj1 (cs_rest_None _) E) as Hn. split.
      * intros t. split; [intros [= <-]; by right|]. intros [(m & Hm & _)|[_ ->]]; [exfalso; apply Hn; by exists m|done].
      * split; [done|]. intros (m & Hm & _). exfalso. apply Hn. by exists m.
  - intros H. unfold getColor. destruct (get_scheme g name) as [cs|e] eqn:E.
    + exfalso. apply H. exists cs. by apply get_scheme_spec.
    + destruct (get_scheme_err g name e E) as [-> _]. done.
Qed.
Print Assumptions C59_getColor.

(** The schemes are exactly these three; any other name is refused, and then the global scheme
    and the default colours stay. *)
Theorem C59_schemes (name : string) (kwargs : dict pyval) (g : scheme) (defaults : dict pyval) :
  (name ∈ ["matplotlib"; "UniYork"; "ImperialLondon"] →
     ∃ cs, pickColorScheme name = Ok cs ∧ (name, cs) ∈ ColorSchemes ∧
       setGlobalColorScheme name g = (cs, Ok tt) ∧
       setDefaultColors name kwargs (g, defaults) = ((cs, dupdate defaults kwargs), Ok tt)) ∧
  (name ∉ ["matplotlib"; "UniYork"; "ImperialLondon"] →
     pickColorScheme name = Err ValueError ∧ setGlobalColorScheme name g = (g, Err ValueError) ∧
     setDefaultColors name kwargs (g, defaults) = ((g, defaults), Err ValueError)).
Proof.
  assert (Hn : ["matplotlib"; "UniYork"; "ImperialLondon"] = ColorSchemes.*1) by reflexivity. rewrite Hn. split.
  - intros ([n cs] & -> & Hin)%elem_of_list_fmap. exists cs. cbn [fst]. unfold setDefaultColors, setGlobalColorScheme, pickColorScheme.
    rewrite (proj2 (dget_Some ColorSchemes n cs (proj1 schemes_wf)) Hin). done.
  - intros Hni. unfold setDefaultColors, setGlobalColorScheme, pickColorScheme.
    assert (E : dget ColorSchemes name = None).
    { apply dget_None. intros v Hv. apply Hni. apply elem_of_list_fmap. by exists (name, v). }
    rewrite E. done.
Qed.
Print Assumptions C59_schemes.

Lemma convert_items_spec cs (d : dict pyval) : NoDup cs.*1 →
  let '(d', r) := convert_items cs d in
  match r with
  | Ok _ => Forall2 (λ '(k, v) '(k', w), k' = k ∧ val_stands_for cs v w) d d'
  | Err e => e = KeyError ∧ ∃ d1 k v d2 d1', d = (d1 ++ (k, v) :: d2)%list ∧ d' = (d1' ++ (k, v) :: d2)%list ∧
      val_undefined cs v ∧ Forall2 (λ '(k, v) '(k', w), k' = k ∧ val_stands_for cs v w) d1 d1'
  end.
Proof.
  intros Hnd. induction d as [|[k v] d IH]; cbn [convert_items]; [constructor|].
  set (o := match v with VStr s => cs_rest s | _ => None end).
  assert (Hone : ∀ w, val_stands_for cs v w → let '(d2, r) := convert_items cs d in
    match r with
    | Ok _ => Forall2 (λ '(k, v) '(k', w), k' = k ∧ val_stands_for cs v w) ((k, v) :: d) ((k, w) :: d2)
    | Err e => e = KeyError ∧ ∃ d1 k0 v0 d3 d1', ((k, v) :: d) = (d1 ++ (k0, v0) :: d3)%list ∧ ((k, w) :: d2) = (d1' ++ (k0, v0) :: d3)%list ∧
      val_undefined cs v0 ∧ Forall2 (λ '(k, v) '(k', w), k' = k ∧ val_stands_for cs v w) d1 d1'
    end).
  { intros w Hw. destruct (convert_items cs d) as [d2 [u|e]].
    - constructor; [done|exact IH].
    - destruct IH as (-> & d1 & k0 & v0 & d3 & d1' & -> & -> & Hu & HF). split; [done|].
      exists ((k, v) :: d1), k0, v0, d3, ((k, w) :: d1'). split; [done|split; [done|split; [done|]]]. by constructor. }
  destruct o as [n|] eqn:Eo.
  - destruct v as [s| | |]; try discriminate Eo. cbn in o. pose proof (proj1 (cs_rest_Some _ _) Eo) as Hs.
    destruct (dget cs n) as [c|] eqn:Ec.
    + specialize (Hone (VStr c)). destruct (convert_items cs d) as [d2 r]. apply Hone. cbn. left. exists n. split; [done|].
      by apply dget_Some.
    + split; [done|]. exists [], k, (VStr s), d, []. split; [done|split; [done|split; [|constructor]]]. cbn. exists n. split; [done|].
      by apply dget_None.
  - specialize (Hone v). destruct (convert_items cs d) as [d2 r]. apply Hone. destruct v as [s| | |]; try done.
    cbn. right. split; [by apply cs_rest_None|done].
Qed.
(** convertColorsInDict: the same keys in the same order, each value replaced by what it stands for;
    other values, such as numbers and lists, are kept.  A value without a colour raises KeyError,
    and the values before it are then already converted.  The dict that is passed is changed. *)
Theorem C59_convertColorsInDict (g : scheme) (d d' : dict pyval) (name : option string) (r : res (dict pyval)) :
  NoDup g.*1 → convertColorsInDict g d name = (d', r) →
  (∀ cs, scheme_of g name cs →
     (r = Ok d' ∧ Forall2 (λ '(k, v) '(k', w), k' = k ∧ val_stands_for cs v w) d d' ∧
        (∀ k v, (k, v) ∈ d → ¬ val_undefined cs v)) ∨
     (r = Err KeyError ∧ ∃ d1 k v d2 d1', d = (d1 ++ (k, v) :: d2)%list ∧ d' = (d1' ++ (k, v) :: d2)%list ∧
        val_undefined cs v ∧ Forall2 (λ '(k, v) '(k', w), k' = k ∧ val_stands_for cs v w) d1 d1')) ∧
  ((¬ ∃ cs, scheme_of g name cs) → r = Err ValueError ∧ d' = d).
Proof.
  intros Hg E. split.
  - intros cs Hcs. assert (Hnd : NoDup cs.*1).
    { destruct name as [n|]; cbn in Hcs; [by apply (proj2 schemes_wf n)|by subst]. }
    unfold convertColorsInDict in E. rewrite (proj2 (get_scheme_spec g name cs) Hcs) in E.
    pose proof (convert_items_spec cs d Hnd) as H. destruct (convert_items cs d) as [d2 [u|e]]; injection E as <- <-; cbn [res_map].
    + left. split; [done|split; [done|]]. intros k v [i Hi]%elem_of_list_lookup Hu.
      destruct (Forall2_lookup_l _ _ _ _ _ H Hi) as ([k' w] & _ & _ & Hw).
      destruct v as [s| | |]; try done. destruct w as [t| | |]; try done. cbn in Hu, Hw.
      destruct Hu as (n & Hs & Hno). destruct Hw as [(m & Hs' & Hin)|[Hno' _]]; [|apply Hno'; by exists n].
      assert (m = n) by (apply cs_rest_Some in Hs; apply cs_rest_Some in Hs'; congruence). subst m. by apply (Hno t).
    + right. destruct H as (-> & H). done.
  - intros H. unfold convertColorsInDict in E. destruct (get_scheme g name) as [cs|e] eqn:Ee.
    + exfalso. apply H. exists cs. by apply get_scheme_spec.
    + destruct (get_scheme_err g name e Ee) as [-> _]. by injection E as <- <-.
Qed.
Print Assumptions C59_convertColorsInDict.

(** convertColorsInList is convertColorsInDict on the values. *)
Theorem C59_convertColorsInList (g : scheme) (l : list string) (name : option string) (keys : list string) :
  length keys = length l →
  let '(l', r) := convertColorsInList g l name in
  convertColorsInDict g (zip keys (VStr <$> l)) name =
    (zip keys (VStr <$> l'), res_map (λ l', zip keys (VStr <$> l')) r) ∧ length l' = length l ∧
  (∀ l'', r = Ok l'' → l'' = l').
Proof.
  intros Hl. unfold convertColorsInList, convertColorsInDict. destruct (get_scheme g name) as [cs|e]; [|done].
  assert (H : ∀ l keys, length keys = length l → let '(l', r) := convert_list cs l in
    convert_items cs (zip keys (VStr <$> l)) = (zip keys (VStr <$> l'), r) ∧ length l' = length l).
  { clear. induction l as [|s l IH]; intros [|k keys] Hl; try discriminate Hl; [done|]. cbn [convert_list fmap list_fmap zip zip_with convert_items].
    specialize (IH keys ltac:(cbn in Hl; lia)). destruct (convert_list cs l) as [l2 r2]. destruct IH as [IH IH2].
    destruct (cs_rest s) as [n|]; [destruct (dget cs n) as [c|]|].
    - rewrite IH. cbn. split; [done|lia].
    - done.
    - rewrite IH. cbn. split; [done|lia]. }
  specialize (H l keys Hl). destruct (convert_list cs l) as [l' r]. destruct H as [-> Hlen]. split; [|split; [done|]].
  - by destruct r.
  - destruct r; cbn; congruence.
Qed.
Print Assumptions C59_convertColorsInList.

(** No colour of a scheme starts with 'cs:', so converting a second time - with any scheme -
    changes nothing. *)
Definition plain_colours (cs : scheme) : Prop := ∀ n c, (n, c) ∈ cs → ¬ ∃ m, c = "cs:" +:+ m.
Lemma schemes_plain n cs : (n, cs) ∈ ColorSchemes → plain_colours cs.
Proof.
  intros H m c Hin. assert (Hall : Forall (λ nc, cs_rest nc.2 = None) cs).
  { unfold ColorSchemes in H. rewrite !elem_of_cons in H. destruct H as [[= -> ->]|[[= -> ->]|[[= -> ->]|H]]]; [repeat constructor..|].
    by apply elem_of_nil in H. }
  rewrite Forall_forall in Hall. specialize (Hall _ Hin). cbn in Hall. by apply cs_rest_None.
Qed.
Theorem C59_idempotent (g : scheme) (d d' : dict pyval) (name : option string) :
  NoDup g.*1 → plain_colours g → convertColorsInDict g d name = (d', Ok d') →
  (∀ g' name' cs', scheme_of g' name' cs' → convertColorsInDict g' d' name' = (d', Ok d')) ∧
  (∀ k s, (k, VStr s) ∈ d' → ¬ ∃ m, s = "cs:" +:+ m).
Proof.
  intros Hg Hp E.
  assert (Hcs : ∃ cs, scheme_of g name cs).
  { destruct (get_scheme g name) as [cs|e] eqn:Ee; [exists cs; by apply get_scheme_spec|]. unfold convertColorsInDict in E.
    rewrite Ee in E. discriminate E. }
  destruct Hcs as [cs Hcs].
  assert (Hpl : plain_colours cs).
  { destruct name as [n|]; cbn in Hcs; [by apply (schemes_plain n)|by subst]. }
  destruct (C59_convertColorsInDict g d d' name (Ok d') Hg E) as [H _].
  destruct (H cs Hcs) as [(_ & HF & _)|[Hx _]]; [|discriminate Hx].
  assert (Hno : ∀ k s, (k, VStr s) ∈ d' → ¬ ∃ m, s = "cs:" +:+ m).
  { intros k s [i Hi]%elem_of_list_lookup. destruct (Forall2_lookup_r _ _ _ _ _ HF Hi) as ([k' v] & _ & _ & Hv).
    destruct v as [s'| | |]; cbn in Hv; try discriminate Hv. destruct Hv as [(n & _ & Hin)|[Hn ->]]; [by apply (Hpl n)|done]. }
  split; [|done]. intros g' name' cs' Hcs'. unfold convertColorsInDict. rewrite (proj2 (get_scheme_spec g' name' cs') Hcs').
  assert (Hconv : convert_items cs' d' = (d', Ok tt)).
  { clear -Hno. induction d' as [|[k v] d' IH]; [done|]. cbn [convert_items].
    assert (Ho : match v with VStr s => cs_rest s | _ => None end = None).
    { destruct v as [s| | |]; try done. apply cs_rest_None. apply (Hno k). by left. }
    rewrite Ho. rewrite IH; [done|]. intros k' s Hin. apply (Hno k'). by right. }
  by rewrite Hconv.
Qed.
Print Assumptions C59_idempotent.

(** The colours that setDefaultColors documents. *)
Definition documented_colours : list string :=
  ["links"; "linksedge"; "linksface"; "eventsedge"; "eventsface"; "conesedge"; "conesface"].
(** The default plot colours stand for a colour in every scheme; every scheme defines the colour
    names of 'matplotlib', with 'gray' the same as 'grey'; but 'darkblue', which the other two
    schemes define, is missing in 'matplotlib'. *)
Lemma all_colours_in (cs : scheme) (d : dict pyval) :
  forallb (λ p : string * pyval, match p.2 with VStr c => bool_decide (c ∈ cs.*2) | _ => false end) d = true →
  ∀ k v, (k, v) ∈ d → ∃ c m, v = VStr c ∧ (m, c) ∈ cs.
Proof.
  rewrite forallb_forall. intros H k v Hin. apply elem_of_list_In in Hin. specialize (H _ Hin). cbn in H.
  destruct v as [c| | |]; try done. apply bool_decide_eq_true in H. apply elem_of_list_fmap in H as ([m c'] & E & H).
  cbn in E. subst c'. by exists c, m.
Qed.
Theorem C59_defaults (n : string) (cs : scheme) : (n, cs) ∈ ColorSchemes →
  (∃ d', convertColorsInDict cs default_colors0 None = (d', Ok d') ∧
     (∀ k, k ∈ d'.*1 ↔ k ∈ documented_colours) ∧ (∀ k v, (k, v) ∈ d' → ∃ c m, v = VStr c ∧ (m, c) ∈ cs)) ∧
  (∀ k, k ∈ scheme_matplotlib.*1 → k ∈ cs.*1) ∧
  (∀ c, ("gray", c) ∈ cs ↔ ("grey", c) ∈ cs) ∧
  ("darkblue" ∈ cs.*1 ↔ n ≠ "matplotlib").
Proof.
  intros H. unfold ColorSchemes in H. rewrite !elem_of_cons in H.
  assert (Hc : ∀ n cs, (n, cs) ∈ ColorSchemes →
    bool_decide (Forall (λ k, k ∈ cs.*1) scheme_matplotlib.*1) = true → dget cs "gray" = dget cs "grey" →
    bool_decide ("darkblue" ∈ cs.*1) = bool_decide (n ≠ "matplotlib") →
    (∀ k, k ∈ scheme_matplotlib.*1 → k ∈ cs.*1) ∧ (∀ c, ("gray", c) ∈ cs ↔ ("grey", c) ∈ cs) ∧ ("darkblue" ∈ cs.*1 ↔ n ≠ "matplotlib")).
  { clear. intros n cs Hin H1 H2 H3. pose proof (proj2 schemes_wf n cs Hin) as Hnd. split; [|split].
    - apply bool_decide_eq_true in H1. by rewrite Forall_forall in H1.
    - intros c. rewrite <- !(dget_Some cs _ c Hnd), H2. done.
    - rewrite <- (bool_decide_eq_true ("darkblue" ∈ cs.*1)), H3. apply bool_decide_eq_true. }
  destruct H as [[= -> ->]|[[= -> ->]|[[= -> ->]|H]]]; [..|by apply elem_of_nil in H];
    (split; [eexists; split; [reflexivity|]; split; [intros k; done|apply all_colours_in; reflexivity]|]); apply Hc; try reflexivity; unfold ColorSchemes; rewrite !elem_of_cons; tauto.
Qed.
Print Assumptions C59_defaults.

(** Colours written with '#' are six hexadecimal digits - except one: 'lime' of ImperialLondon
    contains the letter O. *)
Definition hex_digit (a : ascii) : bool :=
  let n := Ascii.nat_of_ascii a in
  (Nat.leb 48 n && Nat.leb n 57) || (Nat.leb 65 n && Nat.leb n 70) || (Nat.leb 97 n && Nat.leb n 102).
Fixpoint all_chars (p : ascii → bool) (s : string) : bool :=
  match s with EmptyString => true | String a s' => p a && all_chars p s' end.
Definition well_formed_colour (c : string) : Prop :=
  match c with
  | String a r => a = "#"%char → String.length r = 6 ∧ all_chars hex_digit r = true
  | EmptyString => False
  end.
Theorem C59_hexadecimal (n : string) (cs : scheme) (k c : string) :
  (n, cs) ∈ ColorSchemes → (k, c) ∈ cs → ¬ well_formed_colour c ↔ n = "ImperialLondon" ∧ k = "lime".
Proof.
  intros H Hc.
  set (ok := λ c : string, match c with
    | String a r => if decide (a = "#"%char) then bool_decide (String.length r = 6) && all_chars hex_digit r else true
    | EmptyString => false end).
  assert (Hok : ∀ c, ok c = true ↔ well_formed_colour c).
  { intros [|a r]; cbn; [done|]. destruct (decide (a = "#"%char)) as [->|Ha]; [|split; [intros _ ?; done|done]].
    rewrite andb_true_iff, bool_decide_eq_true. tauto. }
  assert (Hf : Forall (λ kc, bool_decide (ok kc.2 = false ↔ (n = "ImperialLondon" ∧ kc.1 = "lime")) = true) cs).
  { unfold ColorSchemes in H. rewrite !elem_of_cons in H. destruct H as [[= -> ->]|[[= -> ->]|[[= -> ->]|H]]]; [repeat constructor..|by apply elem_of_nil in H]. }
  rewrite Forall_forall in Hf. specialize (Hf _ Hc). apply bool_decide_eq_true in Hf. cbn in Hf. rewrite <- Hf, <- Hok.
  destruct (ok c); split; congruence.
Qed.
Print Assumptions C59_hexadecimal.

Example C59_nonvacuous :
  convertColorsInDict scheme_matplotlib [("color", VStr "cs:yellow"); ("alpha", VNum (1 # 10)); ("edgecolor", VStr "none")] (Some "UniYork")
  = ([("color", VStr "#FBB800"); ("alpha", VNum (1 # 10)); ("edgecolor", VStr "none")],
     Ok [("color", VStr "#FBB800"); ("alpha", VNum (1 # 10)); ("edgecolor", VStr "none")]) ∧
  NoDup scheme_matplotlib.*1 ∧ plain_colours scheme_matplotlib.
Proof.
  split; [reflexivity|]. assert (H : ("matplotlib", scheme_matplotlib) ∈ ColorSchemes) by by left.
  split; [by apply (proj2 schemes_wf "matplotlib")|by apply (schemes_plain "matplotlib")].
Qed.
