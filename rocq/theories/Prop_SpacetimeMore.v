(** More theorems about /repo/spacetimes.py and /repo/shapes.py: what the constructors of the
    curved spacetimes return (C63), and MaxEdgeHalf of a cuboid for every list of indices (C56). *)
From Verif Require Import Base SpacetimeModel SpacetimeFacts ShapeModel SpecShape Prop_Spacetime Prop_Shape.
From Coq Require Import Reals Lra Lia.
#[local] Open Scope nat_scope.

(** ** C63 *)
(** A constructed curved spacetime has the dimension and the radius it was asked for, and
    every refusal is a ValueError; a plain Spacetime() has dimension 2. *)
Theorem C63_curved_results (dim : Z) (r : R) (metric : string) :
  Dim Generic = 2 ∧
  (∀ st, deSitterSpacetime dim r = Ok st → Z.of_nat (Dim st) = dim ∧ st = DeSitter (Dim st) r) ∧
  (∀ st, AntideSitterSpacetime dim r = Ok st → Z.of_nat (Dim st) = dim ∧ st = AntiDeSitter (Dim st) r) ∧
  (∀ st, BlackHoleSpacetime dim r metric = Ok st →
     Z.of_nat (Dim st) = dim ∧ ∃ schw, st = BlackHole r schw ∧ (schw = true ↔ metric = "Schwarzschild")) ∧
  (∀ e, deSitterSpacetime dim r = Err e ∨ AntideSitterSpacetime dim r = Err e ∨
        BlackHoleSpacetime dim r metric = Err e → e = ValueError).
Proof.
  unfold deSitterSpacetime, AntideSitterSpacetime, BlackHoleSpacetime.
  split; [done|]. destruct (decide (dim < 2)%Z) as [Hd|Hd].
  { split; [done|]. split; [done|]. split; [done|]. intros e [E|[E|E]]; congruence. }
  split; [|split; [|split]].
  - intros st. destruct (decide (0 < r)%R); intros E; [|done]. injection E as <-. cbn. split; [lia|done].
  - intros st. destruct (decide (0 < r)%R); intros E; [|done]. injection E as <-. cbn. split; [lia|done].
  - intros st. destruct (decide (2 < dim)%Z); [done|]. destruct (decide (metric = _ ∨ _)); [|done].
    destruct (decide (0 < r)%R); intros E; [|done]. injection E as <-. cbn. split; [lia|].
    eexists. split; [done|]. apply bool_decide_eq_true.
  - intros e. repeat case_decide; intros [E|[E|E]]; congruence.
Qed.
Print Assumptions C63_curved_results.

(** ** C56: MaxEdgeHalf of a cuboid, for every list of integers *)
(** [half_edge s d v]: v is half of the edge along d, where -1 is the last dimension. *)
Definition half_edge (s : shape) (d : Z) (v : R) : Prop :=
  ∃ k es x, sh_edges s = Some es ∧ es !! k = Some x ∧ v = (x / 2)%R ∧
    (d = Z.of_nat k ∨ d = (Z.of_nat k - Z.of_nat (sh_dim s))%Z).

Lemma np_index_ok l i v : np_index l i = Ok v ↔
  ∃ k, l !! k = Some v ∧ (i = Z.of_nat k ∨ i = (Z.of_nat k - Z.of_nat (length l))%Z).
Proof.
  unfold np_index. set (k := if decide (i < 0)%Z then (i + Z.of_nat (length l))%Z else i).
  assert (Hk : k = if decide (i < 0)%Z then (i + Z.of_nat (length l))%Z else i) by done. clearbody k. split.
  - destruct (decide (k < 0)%Z); [done|]. destruct (l !! Z.to_nat k) as [x|] eqn:E; [|done]. intros [= <-].
    exists (Z.to_nat k). split; [done|]. destruct (decide (i < 0)%Z); lia.
  - intros (k' & E & Hi). assert (k' < length l) by (by eapply lookup_lt_Some).
    assert (k = Z.of_nat k') as -> by (destruct (decide (i < 0)%Z); lia).
    rewrite decide_False by lia. by rewrite Nat2Z.id, E.
Qed.
Lemma np_index_err l i e : np_index l i = Err e ↔
  e = IndexError ∧ (i < - Z.of_nat (length l) ∨ Z.of_nat (length l) <= i)%Z.
Proof.
  unfold np_index. set (k := if decide (i < 0)%Z then (i + Z.of_nat (length l))%Z else i).
  assert (Hk : k = if decide (i < 0)%Z then (i + Z.of_nat (length l))%Z else i) by done. clearbody k. split.
  - destruct (decide (k < 0)%Z).
    + intros [= <-]. split; [done|]. destruct (decide (i < 0)%Z); lia.
    + destruct (l !! Z.to_nat k) as [x|] eqn:E; [done|]. intros [= <-]. apply lookup_ge_None in E.
      split; [done|]. destruct (decide (i < 0)%Z); lia.
  - intros (-> & H). destruct (decide (k < 0)%Z); [done|].
    rewrite lookup_ge_None_2; [done|]. destruct (decide (i < 0)%Z); lia.
Qed.
Lemma np_take_Ok l dims vs : np_take l dims = Ok vs ↔ Forall2 (λ d v, np_index l d = Ok v) dims vs.
Proof.
  revert vs. induction dims as [|d dims IH]; intros vs; cbn.
  - split; [intros [= <-]; constructor|]. intros H. by inversion H.
  - split.
    + destruct (np_index l d) as [v|] eqn:E; cbn; [|done]. destruct (np_take l dims) as [vs'|] eqn:E'; cbn; [|done].
      intros [= <-]. constructor; [done|]. by apply IH.
    + intros H. inversion H as [|? v ? vs' E E']; subst. rewrite E. cbn. apply IH in E' as ->. done.
Qed.
Lemma np_take_Err l dims e : np_take l dims = Err e →
  e = IndexError ∧ ∃ d, d ∈ dims ∧ np_index l d = Err IndexError.
Proof.
  revert e. induction dims as [|d dims IH]; cbn; [done|]. intros e.
  destruct (np_index l d) as [v|e'] eqn:E; cbn.
  - destruct (np_take l dims) as [vs'|e''] eqn:E'; cbn; [done|]. intros [= <-].
    destruct (IH _ eq_refl) as (-> & d' & Hd & E2). split; [done|]. exists d'. split; [by apply elem_of_list_further|done].
  - intros [= <-]. assert (e' = IndexError) as -> by (by apply np_index_err in E as [-> _]).
    split; [done|]. exists d. split; [apply elem_of_list_here|done].
Qed.

(** The half of the longest listed edge; negative indices count from the end; an index that
    does not exist is an IndexError, and only the empty list is a ValueError. *)
Theorem C56_MaxEdgeHalf_cuboid (s : shape) (dims : list Z) :
  constructed_shape s → sh_name s = "cuboid" →
  match MaxEdgeHalf s dims with
  | Ok m => (∃ d, d ∈ dims ∧ half_edge s d m) ∧
            (∀ d, d ∈ dims → (∃ v, half_edge s d v) ∧ ∀ v, half_edge s d v → (v <= m)%R)
  | Err e => (e = ValueError ∧ dims = []) ∨
             (e = IndexError ∧ ∃ d, d ∈ dims ∧ (d < - Z.of_nat (sh_dim s) ∨ Z.of_nat (sh_dim s) <= d)%Z)
  end.
Proof.
  intros Hs En. destruct (constructed_wf s Hs) as [Hd _ Hc].
  destruct Hc as [[[E|E] _]|[[E _]|[[E _]|[_ (es & Ees & Hl & _)]]]]; [congruence..|].
  unfold MaxEdgeHalf. rewrite En. str_decide. rewrite Ees. change (default [] (Some es)) with es.
  assert (HE : ∀ d v, half_edge s d v ↔ ∃ x, np_index es d = Ok x ∧ v = (x / 2)%R).
  { intros d v. split.
    - intros (k & es' & x & E1 & E2 & E3 & E4). rewrite Ees in E1. injection E1 as <-. exists x. split; [|done].
      apply np_index_ok. exists k. rewrite Hl. done.
    - intros (x & (k & E1 & E2)%np_index_ok & ->). exists k, es, x. rewrite Hl in E2. done. }
  destruct (np_take es dims) as [vs|e] eqn:E; cbn [res_bind].
  - apply np_take_Ok in E. destruct vs as [|v vs]; cbn [py_max res_map].
    { left. split; [done|]. by inversion E. }
    set (m := foldl Rmax v vs). destruct (foldl_Rmax_ge vs v) as (H1 & H2 & H3). fold m in H1, H2, H3.
    assert (Hall : ∀ x, x ∈ v :: vs → (x <= m)%R) by (intros x [-> |Hx]%elem_of_cons; [done|by apply H2]).
    assert (Hm : m ∈ v :: vs) by (destruct H3 as [-> |H3]; [apply elem_of_list_here|by apply elem_of_list_further]).
    split.
    + apply elem_of_list_lookup in Hm as [i Hi]. destruct (Forall2_lookup_r _ _ _ _ _ E Hi) as (d & Hd' & E').
      exists d. split; [by eapply elem_of_list_lookup_2|]. apply HE. eauto.
    + intros d [i Hi]%elem_of_list_lookup. destruct (Forall2_lookup_l _ _ _ _ _ E Hi) as (x & Hx & E').
      split; [exists (x / 2)%R; apply HE; eauto|]. intros w (x' & E2 & ->)%HE. assert (x' = x) as -> by congruence.
      apply elem_of_list_lookup_2 in Hx. specialize (Hall x Hx). lra.
  - apply np_take_Err in E as (-> & d & Hin & (_ & E)%np_index_err). right. split; [done|]. exists d. by rewrite <- Hl.
Qed.
Print Assumptions C56_MaxEdgeHalf_cuboid.

(** Non-vacuity: a cuboid with edges 2, 6, 4 and the indices 0 and -1. *)
Example C56_cuboid_nonvacuous : ∃ s, constructed_shape s ∧ sh_name s = "cuboid" ∧
  MaxEdgeHalf s [0; -1]%Z = Ok 2%R ∧ MaxEdgeHalf s [] = Err ValueError ∧ MaxEdgeHalf s [3]%Z = Err IndexError.
Proof.
  assert (V : valid_args (λ x, x) 3 "cuboid" (ShapeArgs None None None None None (Some [2; 6; 4])%R)).
  { split; try (by intros; discriminate).
    - by right; right.
    - unfold ball_like. intuition discriminate.
    - intros _. split; [done|]. intros x Hx. rewrite !elem_of_cons, elem_of_nil in Hx.
      destruct Hx as [-> |[-> |[-> | []]]]; lra. }
  destruct (proj1 (C55_validation _ _ _ _) V) as (s & E & Hd & Hn & _ & _ & _ & _ & Hes).
  specialize (Hes eq_refl). cbn in Hn, Hes. exists s. split; [by eexists _, _, _, _|]. split; [done|].
  unfold MaxEdgeHalf. rewrite Hn, Hes. str_decide. split; [|done].
  change (res_map (λ v, v / 2)%R (Ok (Rmax 2 4)) = Ok 2%R). cbn [res_map]. rewrite Rmax_right by lra. f_equal. lra.
Qed.
