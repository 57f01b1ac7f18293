(** Multipolygons: sizes and separation. *)
From Coq Require Import Sorting.Sorted.
From Verif Require Import Base Prog Geometry Ctx Utils Contracts Factories Strategies Spec MixSpec QcTac ProgProofs GeomProofs
  ListProofs PrimeProofs SimpleProofs SegmentProofs EdgeProofs HelperProofs ReferenceProofs SeparationProofs MultiProofs SliceProofs.

Lemma drop_drop {A} (l : list A) i j : (0 <= i)%Z -> (0 <= j)%Z -> py_drop l (i + j) = py_drop (py_drop l i) j.
Proof.
  intros Hi Hj. rewrite !drop_pos by lia. rewrite Z2Nat.inj_add by lia. generalize (Z.to_nat i) (Z.to_nat j). clear.
  intros i j. revert l. induction i as [|i IH]; intros l; [reflexivity|]. destruct l as [|x l]; [rewrite !skipn_nil; reflexivity|].
  apply IH.
Qed.
Lemma slice_take {A} (l : list A) i n : (0 <= i)%Z -> (0 <= n)%Z -> incl (py_slice l i (i + n)) (py_take (py_drop l i) n).
Proof.
  intros Hi Hn x Hx. unfold py_slice in Hx. rewrite !py_bound_pos in Hx by lia. rewrite take_pos by lia. unfold py_drop.
  rewrite py_bound_pos by lia. eapply firstn_incl; [|exact Hx]. lia.
Qed.

Definition polygon_before (a : axis) (p q : polygon) : Prop :=
  exists c, (forall v, In v (vertices p) -> (coordinate_along a v <= c)%Qc) /\
    (forall v, In v (vertices q) -> (c <= coordinate_along a v)%Qc) /\
    ((forall v, In v (vertices q) -> (c < coordinate_along a v)%Qc) \/
     (forall s, In s (contour_segments (border p)) -> coordinate_along a (seg_start s) <> c \/ coordinate_along a (seg_end s) <> c)).

Section Loop.
  Context (ctx : context) (a : axis) (xs ys : scalars) (mn : Z) (mx : option Z) (hmn : Z) (hmx : option Z) (smn : Z)
    (smx : option Z) (mpc : Z) (Hmpc : (5 <= mpc)%Z) (Hsmn : (1 <= smn)%Z).
  Lemma multipolygon_loop_spec left : forall coordinates start ps, (0 <= start)%Z ->
    (forall x, In x coordinates -> drawable (scalars_of a xs ys) x) -> StronglySorted Qclt coordinates ->
    generates (multipolygon_loop ctx a xs ys mn mx hmn hmx smn smx mpc left coordinates start) ps ->
    length ps = Nat.max 1 left /\
    (forall p, In p ps -> polygon_sizes p mn mx hmn hmx smn smx /\
       forall q, In q (vertices p) -> In (coordinate_along a q) (py_drop coordinates start) /\ drawable_point xs (Some ys) q) /\
    ForallOrdPairs (polygon_before a) ps.
  Proof.
    induction left as [|left IH]; intros l start ps H0 Hd Hs H.
    - cbn [multipolygon_loop] in H. apply gen_bind in H. destruct H as (p & Hp & H). apply gen_ret in H. subst ps.
      apply slice_polygon_spec in Hp; [|exact Hsmn|intros x Hx; eapply Hd, py_drop_in, Hx].
      split; [reflexivity|]. split; [intros q [<- |[]]; exact Hp|]. repeat constructor.
    - destruct left as [|left].
      { cbn [multipolygon_loop] in H. apply gen_bind in H. destruct H as (p & Hp & H). apply gen_ret in H. subst ps.
        apply slice_polygon_spec in Hp; [|exact Hsmn|intros x Hx; eapply Hd, py_drop_in, Hx].
        split; [reflexivity|]. split; [intros q [<- |[]]; exact Hp|]. repeat constructor. }
      remember (S left) as left1 eqn:El. unfold multipolygon_loop in H; fold multipolygon_loop in H. subst left1.
      apply gen_bind in H. destruct H as (count & Hc & H). apply gen_integers in Hc. destruct Hc as (Hc & _).
      apply gen_bind in H. destruct H as (prior & Hp & H). apply gen_lift in Hp.
      destruct (to_prior_prime_spec count ltac:(lia)) as (prior' & Ep & _ & Hr & _). rewrite Ep in Hp. injection Hp as ->.
      apply gen_bind in H. destruct H as (p & Hp & H). apply gen_bind in H. destruct H as (blocked & Hb & H). apply gen_lift in Hb.
      apply gen_bind in H. destruct H as (rest & Hrest & H). apply gen_ret in H. subst ps.
      assert (Hsl : incl (py_slice l start (start + prior)) (py_take (py_drop l start) prior)) by (apply slice_take; lia).
      apply slice_polygon_spec in Hp; [|exact Hsmn|].
      2:{ intros x Hx. apply Hsl in Hx. eapply Hd, py_drop_in, py_take_in, Hx. }
      destruct Hp as (Hz & Hv).
      assert (Ht : (0 <= b2z (negb blocked) <= 1)%Z) by apply b2z_range.
      apply IH in Hrest; [|lia|exact Hd|exact Hs]. destruct Hrest as (L & Hin & Hf).
      rewrite drop_drop in Hin by lia.
      split; [cbn [length]; rewrite L; lia|]. split.
      + intros q [<- |Hq].
        * split; [exact Hz|]. intros v Hvv. destruct (Hv v Hvv) as (K1 & K2). split; [|exact K2]. apply Hsl in K1. eapply py_take_in, K1.
        * destruct (Hin q Hq) as (K1 & K2). split; [exact K1|]. intros v Hvv. destruct (K2 v Hvv) as (K3 & K4). split; [|exact K4].
          eapply py_drop_in, K3.
      + constructor; [|exact Hf]. apply Forall_forall. intros q Hq. destruct (Hin q Hq) as (_ & K2).
        assert (Hsd : StronglySorted Qclt (py_drop l start)) by (apply skipn_sorted, Hs).
        assert (exists b, forall x, In x (py_drop l start) -> (b <= x)%Qc) as (b & Hlow).
        { destruct (py_drop l start) as [|x l']; [exists (Q2Qc 0); intros ? []|]. exists x. inversion Hsd as [|? ? _ Hf']; subst.
          rewrite Forall_forall in Hf'. intros y [<- |Hy]; [apply Qcle_refl|apply Qclt_le_weak, Hf', Hy]. }
        destruct (cut_line_py (py_drop l start) b count (b2z (negb blocked)) Hsd Hlow ltac:(lia) Ht) as (c & _ & C1 & C2 & C3).
        assert (Hpc : forall v, In v (vertices p) -> (coordinate_along a v <= c)%Qc).
        { intros v Hvv. apply (C1 prior); [lia|]. apply Hsl, Hv, Hvv. }
        exists c. split; [exact Hpc|]. split; [intros v Hvv; apply C2, K2, Hvv|].
        destruct blocked.
        * left. intros v Hvv. apply C3; [reflexivity|]. apply K2, Hvv.
        * right. intros s. apply blocks_touch_false; [exact Hb|]. intros t Hts. apply border_edge_vertices in Hts.
          split; apply Hpc, Hts.
  Qed.
End Loop.

(** ** What it means for the polygons. *)
Definition apart_from (p q : polygon) : Prop :=
  split_by_line (vertices p) (vertices q) /\
  (forall vs, In vs (border q :: holes q) -> edges_apart (border p) vs).
Lemma contour_vertices (q : polygon) vs a b : In vs (border q :: holes q) -> contour_edge vs a b ->
  In a (vertices q) /\ In b (vertices q).
Proof.
  intros H E. apply edge_in in E. unfold vertices. destruct H as [<- |H]; [split; apply in_or_app; left; apply E|].
  split; apply in_or_app; right; apply in_concat; exists vs; (split; [exact H|apply E]).
Qed.
Lemma polygon_before_apart a p q : polygon_before a p q -> apart_from p q.
Proof.
  intros (c & Hp & Hq & H). split; [exists a, c; auto|].
  intros vs Hvs s e s' e' E E'. apply (contour_vertices _ _ _ _ Hvs) in E'.
  destruct (contour_vertices p (border p) s e (or_introl eq_refl) E) as (Es & Ee). destruct H as [H|H].
  - eapply sides_apart_lt; [apply Hp, Es|apply Hp, Ee|apply H, E'|apply H, E'].
  - eapply sides_apart; [apply Hp, Es|apply Hp, Ee|apply Hq, E'|apply Hq, E'|].
    apply (H (Seg s e)). apply segments_edge, E.
Qed.
Lemma kle_coordinate k p q : kle k p q -> (coordinate_along (if k then AxisX else AxisY) p <= coordinate_along (if k then AxisX else AxisY) q)%Qc.
Proof.
  unfold kle, ple, plt. intros [[H|(H & _)]|H].
  - destruct k; cbn in *; apply Qclt_le_weak, H.
  - destruct k; cbn in *; rewrite H; apply Qcle_refl.
  - apply kpt_inj in H. rewrite H. apply Qcle_refl.
Qed.
Lemma parted_split vs ws : parted vs ws -> split_by_line vs ws.
Proof.
  intros (k & m & Hv & Hw). exists (if k then AxisX else AxisY), (coordinate_along (if k then AxisX else AxisY) m).
  split; intros p Hp; apply kle_coordinate; auto.
Qed.

Lemma multipolygon_strategy_spec ctx xs ys mn mx bmn bmx hmn hmx smn smx ps : (1 <= mn)%Z -> (1 <= bmn)%Z -> (1 <= smn)%Z ->
  (hmn = 0%Z -> forall m, hmx = Some m -> (0 <= m)%Z) ->
  generates (to_multipolygon_strategy ctx xs ys mn mx bmn bmx hmn hmx smn smx) ps ->
  size_ok (lenZ ps) mn mx /\
  (forall p, In p ps -> polygon_sizes p bmn bmx hmn hmx smn smx /\ forall q, In q (vertices p) -> drawable_point xs ys q) /\
  ForallOrdPairs apart_from ps.
Proof.
  intros Hmn Hb Hs Hh H. unfold to_multipolygon_strategy in H.
  apply gen_bind in H. destruct H as (mpc & Hm & H). apply gen_lift in Hm. apply to_next_prime_ge in Hm. destruct Hm as (_ & _ & Hm & _).
  change (or_else ys xs) with (ordinates xs ys) in H.
  set (mt := (mn * mpc)%Z) in *. clearbody mt.
  match type of H with context [unique_scalars _ mt ?m] => set (mxt := m) in *; clearbody mxt end. cbv zeta in H.
  assert (Along : forall a, generates (let! l := unique_scalars (scalars_of a xs (ordinates xs ys)) mt mxt in
     coordinates_to_polygons ctx a xs (ordinates xs ys) bmn bmx hmn hmx smn smx mpc mn mx l) ps ->
     size_ok (lenZ ps) mn mx /\
     (forall p, In p ps -> polygon_sizes p bmn bmx hmn hmx smn smx /\ forall q, In q (vertices p) -> drawable_point xs ys q) /\
     ForallOrdPairs apart_from ps).
  { clear H. intros a H. apply gen_bind in H. destruct H as (l & Hl & H). apply gen_unique_scalars in Hl. destruct Hl as (Nd & _ & _ & Hd).
    unfold coordinates_to_polygons in H. apply gen_bind in H. destruct H as (size & Hz & H). apply gen_integers in Hz. destruct Hz as (Z1 & Z2).
    apply multipolygon_loop_spec in H; [|exact Hm|exact Hs|lia| |apply isort_strict, Nd].
    - destruct H as (L & Hin & Hf). split; [|split].
      + unfold lenZ. rewrite L. split; [lia|]. intros m ->. cbn in Z2. lia.
      + intros p Hp. destruct (Hin p Hp) as (K1 & K2). split; [exact K1|]. intros q Hq. apply (K2 q Hq).
      + eapply ForallOrdPairs_impl; [|exact Hf]. intros p q. apply polygon_before_apart.
    - intros x Hx. apply Hd. eapply Permutation_in; [symmetry; apply isort_perm|exact Hx]. }
  assert (Both : generates
        (alt
           (let! l := unique_scalars xs mt mxt in
            coordinates_to_polygons ctx AxisX xs (ordinates xs ys) bmn bmx hmn hmx smn smx mpc mn mx l)
           (let! l := unique_scalars (ordinates xs ys) mt mxt in
            coordinates_to_polygons ctx AxisY xs (ordinates xs ys) bmn bmx hmn hmx smn smx mpc mn mx l)) ps ->
     size_ok (lenZ ps) mn mx /\
     (forall p, In p ps -> polygon_sizes p bmn bmx hmn hmx smn smx /\ forall q, In q (vertices p) -> drawable_point xs ys q) /\
     ForallOrdPairs apart_from ps).
  { intros K. apply gen_alt in K. destruct K as [K|K]; [apply (Along AxisX), K|apply (Along AxisY), K]. }
  destruct (Z.eqb_spec hmn 0) as [E|E]; [|apply Both, H].
  apply gen_alt in H. destruct H as [H|H]; [|apply Both, H]. clear Along Both.
  apply gen_pmap in H. destruct H as (mc & H & ->).
  apply multicontour_strategy_spec in H; [|exact Hb]. destruct H as (H1 & H2 & H3 & H4). split; [|split].
  - unfold lenZ in *. rewrite map_length. exact H1.
  - intros p Hp. apply in_map_iff in Hp. destruct Hp as (vs & <- & Hvs). split.
    + split; [apply H2, Hvs|]. cbn. split; [|intros ? []]. split; [lia|]. intros m Em. apply (Hh E m Em).
    + unfold vertices. cbn [border holes concat]. rewrite app_nil_r. intros q Hq. apply (H3 vs q Hvs Hq).
  - clear H1 H2 H3. induction H4 as [|vs mc Hf Hr IH]; constructor; [|exact IH].
    apply Forall_forall. intros r Hr'. apply in_map_iff in Hr'. destruct Hr' as (ws & <- & Hw). rewrite Forall_forall in Hf. specialize (Hf ws Hw). rename Hf into Hp. unfold apart_from, vertices. cbn [border holes concat].
    rewrite !app_nil_r. split; [apply parted_split, Hp|]. intros us [<- |[]]. apply parted_apart, Hp.
Qed.
