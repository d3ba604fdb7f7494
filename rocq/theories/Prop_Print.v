(** C85: what Python shows for the objects, and what printing does to the events. *)
From Verif Require Import Base Spec EventModel EventFacts EventProps Prop_Event Prop_EventMore CausetModel PyStr.
From stdpp Require Import pretty.
From Coq Require Import Ascii String Reals.
From Verif Require Import SpacetimeModel ShapeModel Prop_Shape Prop_Embed PrintModel.
#[local] Open Scope nat_scope.
#[local] Open Scope string_scope.

(** ** Specification *)
(** Labels that Python shows like a missing label. *)
Definition unnamed (l : label) : Prop := l = LNone ∨ l = LInt 0 ∨ l = LStr "".
(** A label as it is written: integers by their decimal digits, texts between quotes. *)
Definition written (l : label) : string :=
  match l with LNone => "" | LInt z => pretty z | LStr s => "'" +:+ s +:+ "'" end.
(** Texts with commas between them. *)
Fixpoint commas (l : list string) : string :=
  match l with [] => "" | [s] => s | s :: l' => s +:+ ", " +:+ commas l' end.

Lemma commas_join l : join_comma l = commas l.
Proof. induction l as [|s [|t l] IH]; [done|done|]. change (s +:+ ", " +:+ join_comma (t :: l) = s +:+ ", " +:+ commas (t :: l)). by rewrite IH. Qed.
Lemma label_true_spec l : label_true l = false ↔ unnamed l.
Proof.
  unfold label_true, unnamed. destruct l as [|z|s].
  - split; [by left|done].
  - rewrite bool_decide_eq_false. split; [intros H|intros [H|[[= ->]|H]]; [discriminate H| |discriminate H]; intros H; by apply H]. right; left. f_equal. by destruct (decide (z = 0%Z)).
  - rewrite bool_decide_eq_false. split; [intros H|intros [H|[H|[= ->]]]; [discriminate H|discriminate H|]; intros H; by apply H]. right; right. f_equal. by destruct (decide (s = "")).
Qed.
Lemma label_true_named l : label_true l = true ↔ ¬ unnamed l.
Proof. rewrite <- label_true_spec. by destruct (label_true l). Qed.
Lemma written_text l : ¬ unnamed l → label_text l = written l.
Proof. destruct l; [|done|done]. intros H. exfalso. apply H. by left. Qed.
Lemma string_app_inj (a b c : string) : a +:+ c = b +:+ c → a = b.
Proof.
  assert (Hlen : ∀ u v : string, String.length (u +:+ v) = String.length u + String.length v).
  { intros u v. induction u as [|x u IH]; [done|]. change (S (String.length (u +:+ v)) = S (String.length u + String.length v)). by rewrite IH. }
  intros H. assert (Hl : String.length a = String.length b).
  { apply (f_equal String.length) in H. rewrite !Hlen in H. lia. }
  clear Hlen. revert b H Hl. induction a as [|x a IH]; intros [|y b] H Hl; try done.
  injection H as -> H. f_equal. apply IH; [exact H|by injection Hl].
Qed.
Lemma pretty_pos_no_quote p : no_char "'" (pretty (N.pos p)).
Proof.
  unfold pretty, pretty_N. destruct (decide _); [done|]. apply pretty_go_no_char; [|done]. set_solver.
Qed.
Lemma written_inj l l' : ¬ unnamed l → ¬ unnamed l' → written l = written l' → l = l'.
Proof.
  assert (Hq : ∀ (z : Z) s, pretty z ≠ "'" +:+ s).
  { intros z s H. destruct z as [|p|p]; [done| |done].
    pose proof (pretty_pos_no_quote p) as Hn. change (pretty (Z.pos p)) with (pretty (N.pos p)) in H. rewrite H in Hn. by destruct Hn. }
  intros Hl Hl' H. destruct l as [|z|s], l' as [|z'|s']; cbn [written] in H;
    try (exfalso; apply Hl; by left); try (exfalso; apply Hl'; by left).
  - f_equal. by apply (inj pretty) in H.
  - by apply Hq in H.
  - symmetry in H. by apply Hq in H.
  - f_equal. injection H as H. by apply string_app_inj in H.
Qed.

(** ** str of an event *)
Theorem C85_str (h : heap) (x : nat) :
  (unnamed (lab h x) → event_str h x = "#Event") ∧
  (¬ unnamed (lab h x) → event_str h x = "#" +:+ written (lab h x)) ∧
  (∀ y, event_str h x = event_str h y ↔ lab h x = lab h y ∨ (unnamed (lab h x) ∧ unnamed (lab h y))).
Proof.
  assert (H1 : ∀ x, unnamed (lab h x) → event_str h x = "#Event").
  { intros z Hz. unfold event_str. by rewrite (proj2 (label_true_spec _) Hz). }
  assert (H2 : ∀ x, ¬ unnamed (lab h x) → event_str h x = "#" +:+ written (lab h x)).
  { intros z Hz. unfold event_str. rewrite (proj2 (label_true_named _) Hz). by rewrite written_text. }
  assert (Hdec : ∀ x, unnamed (lab h x) ∨ ¬ unnamed (lab h x)).
  { intros z. rewrite <- label_true_spec. destruct (label_true (lab h z)); auto. }
  assert (Hev : ∀ l, ¬ unnamed l → "#Event" ≠ "#" +:+ written l).
  { intros l Hl H. injection H as H. destruct l as [|z|s]; [done| |done]. cbn [written] in H.
    destruct z as [|p|p]; [done| |done]. assert (Hn : no_char "E" (pretty (N.pos p))).
    { unfold pretty, pretty_N. destruct (decide _); [done|]. apply pretty_go_no_char; [|done]. set_solver. }
    change (pretty (Z.pos p)) with (pretty (N.pos p)) in H. rewrite <- H in Hn. by destruct Hn. }
  split; [apply H1|split; [apply H2|]]. intros y. split.
  - intros H. destruct (Hdec x) as [Hx|Hx], (Hdec y) as [Hy|Hy].
    + by right.
    + rewrite (H1 x Hx), (H2 y Hy) in H. by apply Hev in H.
    + rewrite (H2 x Hx), (H1 y Hy) in H. symmetry in H. by apply Hev in H.
    + left. rewrite (H2 x Hx), (H2 y Hy) in H. injection H as H. by apply written_inj.
  - intros [H|[Hx Hy]]; [unfold event_str; by rewrite H|]. by rewrite H1, H1.
Qed.
Print Assumptions C85_str.

(** ** repr of an event *)
(** The parts between the parentheses: the linked past (in some order), the label and the
    coordinates, each only if there is one. *)
Definition shown (fmt : list Q → string) (h : heap) (ps : list nat) (x : nat) : list string :=
  (match ps with [] => [] | _ => ["past={" +:+ commas (event_str h <$> ps) +:+ "}"] end) ++
  (if decide (lab h x = LNone ∨ lab h x = LInt 0 ∨ lab h x = LStr "") then [] else ["label=" +:+ written (lab h x)]) ++
  (match Base.coords h x with Some c => ["coordinates=" +:+ fmt c] | None => [] end).
Lemma app_assoc_s (a b c : string) : (a +:+ b) +:+ c = a +:+ (b +:+ c).
Proof. induction a as [|x a IH]; [done|]. change (String x ((a +:+ b) +:+ c) = String x (a +:+ (b +:+ c))). by rewrite IH. Qed.
Lemma event_repr_text it fmt h x :
  snd (event_repr it fmt h x) = "CausetEvent(" +:+ commas (shown fmt (fst (get_LinkPast h x)) (it 60 (snd (get_LinkPast h x))) x) +:+ ")".
Proof.
  unfold event_repr. destruct (get_LinkPast h x) as [h1 links]. cbn [fst snd]. rewrite commas_join. unfold shown.
  set (ps := it 60 links).
  assert (HP : commas (event_str h1 <$> ps) ≠ "" ↔ ps ≠ []).
  { destruct ps as [|p ps']; [done|]. split; [done|]. intros _ H.
    assert (Hh : ∃ t, event_str h1 p = "#" +:+ t) by (unfold event_str; destruct (label_true _); eexists; reflexivity).
    destruct Hh as [t Ht]. destruct ps' as [|q ps']; cbn in H; rewrite Ht in H; done. }
  destruct (decide (lab h1 x = LNone ∨ lab h1 x = LInt 0 ∨ lab h1 x = LStr "")) as [Hu|Hu].
  - rewrite (proj2 (label_true_spec _) Hu).
    destruct (decide (commas (event_str h1 <$> ps) ≠ "")) as [Hp|Hp]; rewrite HP in Hp.
    + destruct ps as [|p ps']; [done|]. destruct (Base.coords h1 x); cbn [app commas]; by rewrite !app_assoc_s.
    + destruct ps as [|p ps']; [|exfalso; by apply Hp]. destruct (Base.coords h1 x); cbn [app commas]; by rewrite ?app_assoc_s.
  - rewrite (proj2 (label_true_named _) Hu), written_text by done.
    destruct (decide (commas (event_str h1 <$> ps) ≠ "")) as [Hp|Hp]; rewrite HP in Hp.
    + destruct ps as [|p ps']; [done|]. destruct (Base.coords h1 x); cbn [app commas]; by rewrite !app_assoc_s.
    + destruct ps as [|p ps']; [|exfalso; by apply Hp]. destruct (Base.coords h1 x); cbn [app commas]; by rewrite ?app_assoc_s.
Qed.
Lemma event_repr_heap it fmt h x : fst (event_repr it fmt h x) = after QLinkPast h x.
Proof. unfold event_repr. cbn [after]. by destruct (get_LinkPast h x). Qed.

(** The text shows the events linked in the past, each once, the label and the coordinates. *)
Theorem C85_repr (it : oracle) (fmt : list Q → string) (h : heap) (x : nat) :
  iter_ok it → order_inv h → link_inv h →
  ∃ ps, NoDup ps ∧ (∀ y, y ∈ ps ↔ covers (before h) y x) ∧
    snd (event_repr it fmt h x) = "CausetEvent(" +:+ commas (shown fmt h ps x) +:+ ")".
Proof.
  intros Hit HO HL. rewrite event_repr_text.
  assert (HP : link_paired h).
  { intros y. destruct (HL y) as [[-> ->]|(? & ? & -> & -> & _)]; [done|]. split; discriminate. }
  exists (it 60 (snd (get_LinkPast h x))).
  split; [by apply iter_nodup|]. split.
  { intros y. rewrite iter_elem, get_LinkPast_value by done. by apply LinkPast_spec. }
  do 2 f_equal.
  destruct (C67_reading_links QLinkPast h x HP) as (_ & _ & Hy & _ & _ & Hl & Hc & _). cbn [after] in *.
  unfold shown. rewrite Hl, Hc. f_equal.
  assert (Hf : ∀ y, event_str (fst (get_LinkPast h x)) y = event_str h y).
  { intros y. unfold event_str, lab. destruct (decide (y = x)) as [->|Hn]; [unfold lab in Hl; by rewrite Hl|by rewrite Hy]. }
  destruct (it 60 (snd (get_LinkPast h x))) as [|p ps]; [done|]. do 4 f_equal.
  f_equal. apply list_fmap_ext. intros. apply Hf.
Qed.
Print Assumptions C85_repr.

(** Showing an event is not free of effects: it links the event.  Nothing else changes, but
    calls that raise AttributeError for an event without links - unlink, disjoin - succeed
    afterwards. *)
Theorem C85_repr_effect (it : oracle) (fmt : list Q → string) (h : heap) (x : nat) : link_paired h →
  let h' := fst (event_repr it fmt h x) in
  hasBeenLinked h' x = true ∧
  (hasBeenLinked h x = true → h' = h) ∧
  (∀ y, y ≠ x → h' !!! y = h !!! y) ∧
  Past h' x = Past h x ∧ Future h' x = Future h x ∧ lab h' x = lab h x ∧
  Base.coords h' x = Base.coords h x ∧ Base.pos h' x = Base.pos h x ∧
  (hasBeenLinked h x = false →
     snd (disjoin it h x) = Err AttributeError ∧ snd (disjoin it h' x) = Ok tt ∧
     snd (unlink h x) = Err AttributeError ∧ snd (unlink h' x) = Ok tt).
Proof.
  intros HP. cbn zeta. rewrite event_repr_heap.
  destruct (C67_reading_links QLinkPast h x HP) as (H1 & H2 & H3 & H4 & H5 & H6 & H7 & H8 & H9).
  do 8 (split; [done|]). intros Hn.
  assert (E1 : unlink h x = (h, Err AttributeError)).
  { unfold unlink. destruct (lprec h x) eqn:E; [|done]. unfold hasBeenLinked in Hn. specialize (HP x). rewrite E in Hn, HP.
    destruct (lsucc h x); [done|]. destruct HP as [_ HP]. by specialize (HP eq_refl). }
  assert (E2 : ∀ h', hasBeenLinked h' x = true → ∃ h2, unlink h' x = (h2, Ok tt)).
  { clear. intros h' H. unfold hasBeenLinked in H. unfold unlink. destruct (lprec h' x) eqn:E; [|done].
    destruct (lsucc (upd (set_lprec None) x h') x) eqn:E'; [eauto|]. exfalso.
    unfold lsucc in E', H. rewrite upd_same in E'. cbn in E'. by rewrite E' in H. }
  destruct (E2 _ H1) as [h2 E3]. unfold disjoin. rewrite E1, E3. done.
Qed.
Print Assumptions C85_repr_effect.

(** ** repr of a causet *)
Lemma repr_loop_spec it fmt : ∀ l h, link_paired h → NoDup l →
  let '(h', ts) := repr_loop it fmt h l in
  link_paired h' ∧ (∀ y, y ∉ l → h' !!! y = h !!! y) ∧
  (∀ y, y ∈ l → hasBeenLinked h' y = true) ∧
  (∀ y, Past h' y = Past h y ∧ Future h' y = Future h y ∧ lab h' y = lab h y ∧ Base.coords h' y = Base.coords h y ∧ Base.pos h' y = Base.pos h y) ∧
  ts = (λ x, snd (event_repr it fmt h x)) <$> l.
Proof.
  intros l. induction l as [|x l IH]; intros h HP Hnd; cbn [repr_loop].
  { split_and!; try done. intros y Hy. by apply elem_of_nil in Hy. }
  apply NoDup_cons in Hnd as [Hx Hnd].
  pose proof (event_repr_heap it fmt h x) as Eh. pose proof (event_repr_text it fmt h x) as Et.
  destruct (event_repr it fmt h x) as [h1 t] eqn:E. cbn [fst snd] in Eh, Et.
  destruct (C67_reading_links QLinkPast h x HP) as (A1 & A2 & A3 & A4 & A5 & A6 & A7 & A8 & A9). rewrite <- Eh in *.
  assert (Hlab : ∀ y, lab h1 y = lab h y).
  { intros y. destruct (decide (y = x)) as [->|Hn]; [done|]. unfold lab. by rewrite A3. }
  specialize (IH h1 A9 Hnd). destruct (repr_loop it fmt h1 l) as [h2 ts]. destruct IH as (I1 & I2 & I3 & I4 & I5).
  split; [done|]. split.
  { intros y Hy. apply not_elem_of_cons in Hy as [Hy1 Hy2]. rewrite I2, A3 by done. done. }
  split.
  { intros y [->|Hy]%elem_of_cons; [|auto]. unfold hasBeenLinked, lprec, lsucc. rewrite (I2 x Hx). done. }
  split.
  { intros y. destruct (I4 y) as (-> & -> & -> & -> & ->). destruct (decide (y = x)) as [->|Hn]; [done|].
    unfold Past, Future, lab, Base.coords, Base.pos, prec, succ. by rewrite A3. }
  cbn [fmap list_fmap]. rewrite E. cbn [snd]. f_equal. rewrite I5. apply list_fmap_ext. intros i y Hy.
  assert (Hyx : y ≠ x) by (intros ->; apply Hx; by eapply elem_of_list_lookup_2).
  rewrite !event_repr_text.
  assert (Hlp : lprec h1 y = lprec h y ∧ prec h1 y = prec h y) by (unfold lprec, prec; by rewrite A3).
  assert (Hpr : ∀ z, prec h1 z = prec h z ∧ succ h1 z = succ h z).
  { intros z. destruct (decide (z = x)) as [->|Hn]; [done|]. unfold prec, succ. by rewrite A3. }
  assert (Hv : snd (get_LinkPast h1 y) = snd (get_LinkPast h y)).
  { rewrite !get_LinkPast_value. unfold LinkPast. destruct Hlp as [-> Hp]. destruct (lprec h y); [done|].
    unfold link_past_set. rewrite Hp. apply set_eq. intros z. rewrite !elem_of_filter. unfold isLink.
    destruct (Hpr z) as [_ Hs]. rewrite Hs. destruct (Hpr y) as [Hs' _]. by rewrite Hs'. }
  assert (HP1 : link_paired h1) by done.
  rewrite Hv.
  destruct (C67_reading_links QLinkPast h1 y HP1) as (_ & _ & B3 & _ & _ & B6 & B7 & _).
  destruct (C67_reading_links QLinkPast h y HP) as (_ & _ & D3 & _ & _ & D6 & D7 & _). cbn [after] in *.
  assert (Hlab' : ∀ z, lab (fst (get_LinkPast h1 y)) z = lab (fst (get_LinkPast h y)) z).
  { intros z. destruct (decide (z = y)) as [->|Hn]; [by rewrite B6, D6|].
    transitivity (lab h1 z); [unfold lab; by rewrite B3|]. rewrite Hlab. unfold lab; by rewrite D3. }
  assert (Hc : Base.coords h1 y = Base.coords h y) by (unfold Base.coords; by rewrite A3).
  assert (Hm : event_str (fst (get_LinkPast h1 y)) <$> it 60 (snd (get_LinkPast h y)) =
               event_str (fst (get_LinkPast h y)) <$> it 60 (snd (get_LinkPast h y))).
  { apply list_fmap_ext. intros j z _. unfold event_str. by rewrite Hlab'. }
  unfold shown. by rewrite Hlab', B7, D7, Hc, Hm.
Qed.
(** repr (and str) of a causet shows every event of it once, and links all of them; the
    order, labels, coordinates and the events outside do not change. *)
Theorem C85_causet_repr (it : oracle) (fmt : list Q → string) (h : heap) (C : gset nat) :
  iter_ok it → link_paired h →
  let h' := fst (causet_repr it fmt h C) in
  (∃ l, NoDup l ∧ (∀ x, x ∈ l ↔ x ∈ C) ∧
     snd (causet_repr it fmt h C) =
       if decide (C = ∅) then "set()" else "{" +:+ commas ((λ x, snd (event_repr it fmt h x)) <$> l) +:+ "}") ∧
  (∀ x, x ∈ C → hasBeenLinked h' x = true) ∧
  (∀ x, x ∉ C → h' !!! x = h !!! x) ∧
  (∀ x, Past h' x = Past h x ∧ Future h' x = Future h x ∧ lab h' x = lab h x ∧
        Base.coords h' x = Base.coords h x ∧ Base.pos h' x = Base.pos h x).
Proof.
  intros Hit HP. cbn zeta. unfold causet_repr.
  assert (Hnd : NoDup (it 61 C)) by (by apply iter_nodup).
  assert (Hin : ∀ x, x ∈ it 61 C ↔ x ∈ C) by (intros x; by apply iter_elem).
  pose proof (repr_loop_spec it fmt (it 61 C) h HP Hnd) as H.
  destruct (repr_loop it fmt h (it 61 C)) as [h1 ts]. destruct H as (_ & H2 & H3 & H4 & ->). cbn [fst snd].
  split; [|split; [|split; [|done]]].
  - exists (it 61 C). split; [done|split; [done|]]. rewrite commas_join. destruct (it 61 C) as [|x l] eqn:E.
    + destruct (decide (C = ∅)) as [_|Hn]; [done|]. exfalso. apply set_choose_L in Hn as [x Hx]. apply Hin in Hx. by apply elem_of_nil in Hx.
    + destruct (decide (C = ∅)) as [->|_]; [|done]. exfalso. by apply (not_elem_of_empty (C := gset nat) x), Hin; left.
  - intros x Hx. by apply H3, Hin.
  - intros x Hx. apply H2. by rewrite Hin.
Qed.
Print Assumptions C85_causet_repr.

(** ** str of shapes and spacetimes *)
(** The text names the dimension and the kind of the shape, with the word hollow exactly if a
    part around the centre is cut out; a diamond is shown as a bicone. *)
Theorem C85_shape_str (s : shape) : constructed_shape s →
  shape_str s = (if decide (sh_name s ∈ ["ball"; "bicone"; "cylinder"] ∧ (0 < default 0 (sh_hollow s))%R) then "hollow " else "")
    +:+ str_of_nat (sh_dim s) +:+ "-" +:+ sh_name s ∧
  sh_name s ∈ ["ball"; "bicone"; "cylinder"; "cube"; "cuboid"].
Proof.
  intros Hs. assert (Hbox : sh_name s = "cube" ∨ sh_name s = "cuboid" → sh_hollow s = None).
  { destruct Hs as (f32 & dim & name & args & E). unfold CoordinateShape in E.
    destruct (decide (dim < 1)%Z); [done|]. cbn zeta in E.
    set (nm := if decide (name = "diamond") then "bicone" else name) in E.
    destruct (decide (nm ∈ _)) as [_|?]; [|done].
    destruct (init_center f32 _ _) as [c|]; [|done]. cbn [res_bind] in E.
    destruct (decide (nm = "ball" ∨ nm = "bicone" ∨ nm = "cylinder")) as [Hn|_].
    - destruct (rangecheck _ None false); [|done]. cbn [res_bind] in E. destruct (rangecheck _ (Some _) true); [|done]. cbn [res_bind] in E.
      assert (Hname : sh_name s = nm).
      { destruct (decide (nm = "cylinder")); [|by injection E as <-]. destruct (rangecheck _ None false); [|done]. by injection E as <-. }
      rewrite Hname. intros [H|H]; rewrite H in Hn; exfalso; destruct Hn as [|[|]]; done.
    - destruct (decide (nm = "cube")).
      + destruct (rangecheck _ None false); [|done]. by injection E as <-.
      + destruct (decide (@eq nat _ _)); [|done]. destruct (decide (Exists _ _)); [done|]. by injection E as <-. }
  destruct (constructed_wf s Hs) as [_ _ Hcases]. unfold shape_str, str_hollow, str_of_nat.
  destruct Hcases as [[[En|En] (r & h & Er & Eh & Hr & Hh)]|[[En (r & h & T & Er & Eh & ET & Hr & Hh & HT)]|[[En _]|[En _]]]].
  4,5: rewrite Hbox by tauto; destruct (decide _) as [[_ H]|_]; [exfalso; cbn in H; by apply (Rlt_irrefl 0)|]; split; [done|rewrite En; decide_vm].
  all: rewrite Eh, En; cbn [default]; unfold Datatypes.id; (split; [|decide_vm]); destruct (decide _) as [[_ H]|H];
    [by rewrite bool_decide_true|]; rewrite bool_decide_false; [done|]; intros H'; apply H; (split; [decide_vm|done]).
Qed.
Print Assumptions C85_shape_str.

(** The text of a spacetime names its dimension and kind; no two kinds or dimensions share a
    text. *)
Definition same_kind (a b : spacetime) : Prop :=
  match a, b with
  | Generic, Generic | Flat _ _, Flat _ _ | DeSitter _ _, DeSitter _ _ | AntiDeSitter _ _, AntiDeSitter _ _
  | BlackHole _ _, BlackHole _ _ => True
  | _, _ => False
  end.
Lemma app_split_no_char c (a b a' b' : string) : no_char c a → no_char c a' →
  a +:+ String c b = a' +:+ String c b' → a = a' ∧ b = b'.
Proof.
  revert a'. induction a as [|x a IH]; intros [|y a'] Ha Ha' H; cbn in *.
  - by injection H as ->.
  - injection H as <- _. by destruct Ha'.
  - injection H as -> _. by destruct Ha.
  - injection H as -> H. destruct (IH a') as [-> ->]; [tauto|tauto|done|]. done.
Qed.
Theorem C85_spacetime_str (a b : spacetime) :
  (∀ dim p st, FlatSpacetime dim p = Ok st → spacetime_str st = pretty dim +:+ "-dimensional flat spacetime") ∧
  (spacetime_str a = spacetime_str b ↔ Dim a = Dim b ∧ same_kind a b).
Proof.
  split.
  - intros dim p st E. unfold FlatSpacetime in E. destruct (decide (dim < 1)%Z) as [|Hd]; [done|].
    assert (Hst : ∃ per, st = Flat (Z.to_nat dim) per).
    { repeat (match type of E with context [match ?x with _ => _ end] => destruct x end; try done); injection E as <-; eauto. }
    destruct Hst as [per ->]. unfold spacetime_str. cbn [Dim spacetime_name].
    assert (Hp : pretty (N.of_nat (Z.to_nat dim)) = pretty dim).
    { destruct dim as [|q|q]; [lia| |lia]. rewrite Z2Nat.inj_pos, positive_nat_N. done. }
    by rewrite Hp.
  - split.
    + intros H. unfold spacetime_str in H.
      assert (Hd : ∀ n, no_char "-" (pretty (N.of_nat n))) by apply str_of_nat_no_dash.
      apply app_split_no_char in H as [H1 H2]; [|apply Hd|apply Hd].
      split; [by apply (str_of_nat_inj)|]. destruct a, b; cbn in H2 |- *; done.
    + intros [H1 H2]. unfold spacetime_str. rewrite H1. destruct a, b; done.
Qed.
Print Assumptions C85_spacetime_str.

(** ** Concrete cases *)
(** The store of C04_nonvacuous: event 2 with the links 1 and 3 in its past. *)
Example C85_nonvacuous (fmt : list Q → string) :
  iter_ok it_sorted ∧ order_inv demo ∧ link_inv demo ∧ link_paired demo ∧ hasBeenLinked demo 3 = false ∧
  event_str demo 3 = "#'x'" ∧
  snd (event_repr it_sorted fmt demo 2) = "CausetEvent(past={#2, #'x'}, label=3, coordinates=" +:+ fmt [] +:+ ")" ∧
  hasBeenLinked (fst (event_repr it_sorted fmt demo 3)) 3 = true ∧
  snd (disjoin it_sorted demo 3) = Err AttributeError ∧
  snd (disjoin it_sorted (fst (event_repr it_sorted fmt demo 3)) 3) = Ok tt.
Proof.
  assert (HP : link_paired demo).
  { intros y. destruct (demo_link y) as [[-> ->]|(? & ? & -> & -> & _)]; [done|]. split; discriminate. }
  assert (Hn : hasBeenLinked demo 3 = false) by (vm_compute; reflexivity).
  destruct (C85_repr_effect it_sorted fmt demo 3 HP) as (H1 & _ & _ & _ & _ & _ & _ & _ & H2).
  destruct (H2 Hn) as (H3 & H4 & _).
  split_and!; [apply it_sorted_ok|apply demo_order|apply demo_link|done|done|vm_compute; reflexivity|vm_compute; reflexivity|done|done|done].
Qed.
