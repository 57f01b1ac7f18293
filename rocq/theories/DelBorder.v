(** The border loop of [to_polygon] on the quad-edge heap. *)
From Coq Require Import List Lia Permutation.
From Verif Require Import Base Geometry Ctx Spec WindSpec QcTac QcFast GeomProofs ListProofs LoopProofs CycEdge SeparationProofs SegmentProofs
  QuadEdge Triangulation Factories QuadProofs TriProofs CarveProofs MultiProofs
  DelGeo DelCyc DelMap DelFan DelOps DelCand DelMerge DelStart DelHeap DelFind DelHull DelCarve DelWind.
Import ListNotations.
Open Scope nat_scope.

Lemma delete_start h e x : start (delete h e) x = start h x.
Proof. reflexivity. Qed.
Lemma delete_end h e x : end_ (delete h e) x = end_ h x.
Proof. reflexivity. Qed.

(** The boundary is one cycle. *)
Definition cycle (bd : point -> point -> Prop) (L : list point) : Prop :=
  NoDup L /\ 2 <= length L /\ forall a b, bd a b <-> In (a, b) (ces L).
Lemma cycle_del bd u w v L : cycle bd L -> bd u w -> u <> w -> ~ In v L ->
  exists L', cycle (bd_del bd u w v) L' /\ Permutation (v :: L) L' /\
    forall q, (wsum q (ces L') + passes q u w = wsum q (ces L) + passes q u v + passes q v w)%Z.
Proof.
  intros (N & Len & C) H n Nv. apply C in H. destruct (ces_start _ _ _ H n) as (l & P & Pe).
  assert (N' : NoDup (u :: w :: l)) by (apply (Permutation_NoDup (Permutation_sym P)), N).
  assert (P' : Permutation (v :: L) (u :: v :: w :: l)).
  { etransitivity; [apply perm_skip, Permutation_sym, P|]. apply perm_swap. }
  exists (u :: v :: w :: l). split; [split; [|split]|split].
  - apply (Permutation_NoDup P'). constructor; assumption.
  - cbn [length]. lia.
  - intros a b. rewrite ces_cons3. cbn [In]. pose proof (fun a b => Permutation_in (a, b) Pe) as K1. pose proof (fun a b => Permutation_in (a, b) (Permutation_sym Pe)) as K2.
    rewrite ces_cons2 in K1, K2. cbn [In] in K1, K2.
    assert (Nin : ~ In (u, w) (combine (w :: l) (l ++ [u]))).
    { pose proof (ces_nodup _ N') as Nc. rewrite ces_cons2 in Nc. apply NoDup_cons_iff in Nc. apply Nc. }
    unfold bd_del. split.
    + intros [(h & h')|[(-> & ->)|(-> & ->)]]; auto. apply C in h. destruct (K2 _ _ h) as [e|h1]; [injection e as -> ->; tauto|auto].
    + intros [e|[e|h]]; [injection e as <- <-; auto|injection e as <- <-; auto|]. left. split; [apply C, K1; right; exact h|].
      intros (-> & ->). contradiction.
  - exact P'.
  - intros q. rewrite <- (wsum_perm q _ _ Pe), ces_cons3, ces_cons2, !wsum_cons. lia.
Qed.
Lemma cycle_vertex bd L u : cycle bd L -> (In u L <-> exists w, bd u w).
Proof.
  intros (_ & _ & C). split.
  - intros H. destruct (ces_out _ _ H) as (b & Hb). exists b. apply C, Hb.
  - intros (w & H). apply C in H. apply (ces_in _ _ _ H).
Qed.

(** ** Sets keyed by edges. *)
Lemma kset_max_in s : forall best, kset_max best s = best \/ In (kset_max best s) s.
Proof.
  induction s as [|x s IH]; intros best; [left; reflexivity|]. cbn [kset_max]. destruct (IH (if key_ltb (fst best) (fst x) then x else best)) as [h|h].
  - rewrite h. destruct (key_ltb _ _); [right; left; reflexivity|left; reflexivity].
  - right. right. exact h.
Qed.
Lemma key_eqb_refl k : key_eqb k k = true.
Proof. destruct k as ((w & a) & b). unfold key_eqb. rewrite Z.eqb_refl. assert (R : forall p, point_eqb p p = true) by (intros; apply point_eqb_eq; reflexivity). rewrite !R. reflexivity. Qed.
Lemma nodup_snd_inj {A B} (l : list (A * B)) a a' b : NoDup (List.map snd l) -> In (a, b) l -> In (a', b) l -> a = a'.
Proof.
  induction l as [|(x, y) l IH]; intros N H H'; [destruct H|]. cbn [List.map snd] in N. apply NoDup_cons_iff in N. destruct N as (N1 & N2).
  destruct H as [e|H]; destruct H' as [e'|H'].
  - congruence.
  - injection e as -> ->. destruct N1. apply (in_map snd _ _ H').
  - injection e' as -> ->. destruct N1. apply (in_map snd _ _ H).
  - apply IH; assumption.
Qed.
Lemma nodup_map_filter {A B} (f : A -> B) g l : NoDup (List.map f l) -> NoDup (List.map f (filter g l)).
Proof.
  induction l as [|x l IH]; intros N; [constructor|]. cbn [List.map] in N. apply NoDup_cons_iff in N. destruct N as (N1 & N2). cbn [filter].
  destruct (g x); [|auto]. cbn [List.map]. constructor; [|auto]. intros H. apply N1. apply in_map_iff in H. destruct H as (y & e & H).
  apply filter_In in H. apply in_map_iff. exists y. split; [exact e|apply H].
Qed.
Lemma kset_popmax_spec s e s' : NoDup (List.map snd s) -> kset_popmax s = Ok (e, s') ->
  (exists k, In (k, e) s) /\ incl s' s /\ NoDup (List.map snd s') /\ ~ In e (List.map snd s').
Proof.
  intros N H. destruct s as [|x s]; [discriminate|]. cbn [kset_popmax] in H.
  pose proof (kset_max_in s x) as K. destruct (kset_max x s) as (k & e0). injection H as <- <-.
  change (if negb (key_eqb (fst x) k) then _ else _)
    with (filter (fun ke => negb (key_eqb (fst ke) k)) (x :: s)).
  assert (I : In (k, e0) (x :: s)) by (destruct K as [<- |K]; [left; reflexivity|right; exact K]).
  split; [exists k; exact I|]. split; [intros y Hy; apply filter_In in Hy; apply Hy|]. split; [apply nodup_map_filter, N|].
  intros h. apply in_map_iff in h. destruct h as ((k' & e') & <- & h). apply filter_In in h. destruct h as (h & h'). cbn [fst snd] in *.
  rewrite (nodup_snd_inj _ _ _ _ N h I), key_eqb_refl in h'. discriminate.
Qed.
Lemma kset_add_spec fuel h s e s' : NoDup (List.map snd s) -> ~ In e (List.map snd s) -> kset_add fuel h s e = Ok s' ->
  NoDup (List.map snd s') /\ (forall k d, In (k, d) s' -> In (k, d) s \/ d = e) /\ incl s s'.
Proof.
  intros N Ne H. unfold kset_add in H. apply rbind_ok in H. destruct H as (k & _ & H). injection H as <-.
  destruct (existsb _ _); [split; [exact N|]; split; [auto|apply incl_refl]|].
  split; [cbn [List.map snd]; constructor; assumption|]. split; [|apply incl_tl, incl_refl].
  intros k' d [e'|h']; [right; congruence|left; exact h'].
Qed.

Section B.
Context (ctx : context) (hole_edges : list segment) (S : list point) (bp0 : list point) (HQ : point -> Prop).
Definition clean (v : point) : Prop := forall s, In s hole_edges -> ~ on_segment v (seg_start s) (seg_end s).
Definition clear (a b : point) : Prop := forall s, In s hole_edges -> ~ segments_touch s (Seg a b).
Context (Near : forall l s, l <> [] -> is_nearest l s (ctx_nearest ctx l s)).
Context (Ends : forall s, In s hole_edges -> In (seg_start s) S /\ In (seg_end s) S).
Context (Rest : forall v, In v S -> ~ In v bp0 -> clean v).
Context (HQS : forall q, HQ q -> In q S /\ In q bp0 /\ exists s, In s hole_edges /\ (q = seg_start s \/ q = seg_end s)).

Lemma on_start a b : on_segment a a b.
Proof. exists (Q2Qc 0). split; [ql|]. split; [ql|]. split; ring. Qed.
Lemma on_end a b : on_segment b a b.
Proof. exists 1%Qc. split; [ql|]. split; [ql|]. split; ring. Qed.
Lemma clear_start a b : clear a b -> clean a.
Proof. intros C s Hs O. apply (C s Hs). exists a. split; [exact O|apply on_start]. Qed.
Lemma clear_end a b : clear a b -> clean b.
Proof. intros C s Hs O. apply (C s Hs). exists b. split; [exact O|apply on_end]. Qed.
Lemma inside_btw p a b : inside p a b -> btw p a b.
Proof.
  intros H. destruct (inside_param _ _ _ H) as (t & t0 & t1 & X & Y). pose proof (inside_neq _ _ _ H) as n.
  apply (param_btw a b p t); auto.
Qed.
(** An edge of the triangulation that does not cross a hole does not touch it either. *)
Lemma not_crossing m a b : laws S m -> me m a b -> clean a -> clean b ->
  cross_or_overlap_holes ctx hole_edges (Seg a b) = false -> clear a b.
Proof.
  intros W E Ca Cb H s Hs T. unfold cross_or_overlap_holes in H.
  assert (Hne : hole_edges <> []) by (intros e; rewrite e in Hs; destruct Hs).
  destruct (Near hole_edges (Seg a b) Hne) as (Hin & Nr).
  assert (H' : segments_cross_or_overlap (ctx_nearest ctx hole_edges (Seg a b)) (Seg a b) = false) by (destruct hole_edges; [destruct Hs|exact H]).
  set (t := ctx_nearest ctx hole_edges (Seg a b)) in *. clearbody t.
  destruct (Nr (ex_intro _ s (conj Hs T))) as (p & O1 & O2). cbn [seg_start seg_end] in O2.
  destruct (point_eq_dec p a) as [-> |na]; [apply (Ca t Hin O1)|]. destruct (point_eq_dec p b) as [-> |nb]; [apply (Cb t Hin O1)|].
  assert (Ip : inside p a b) by (split; auto).
  destruct (Ends t Hin) as (I1 & I2).
  destruct (point_eq_dec p (seg_start t)) as [e|n1]; [apply (l_clean _ _ W a b p E); [rewrite e; exact I1|apply inside_btw, Ip]|].
  destruct (point_eq_dec p (seg_end t)) as [e|n2]; [apply (l_clean _ _ W a b p E); [rewrite e; exact I2|apply inside_btw, Ip]|].
  assert (X : segments_cross_or_overlap t (Seg a b) = true); [|congruence].
  apply cross_or_overlap_spec. exists p. split; [split; auto|exact Ip].
Qed.

(** ** The invariant. *)
Definition nb_ok (h : heap) (P : edge -> Prop) (m : map) (e : edge) (nb : list edge) : Prop :=
  exists d1 d2, nb = [d1; d2] /\ P d1 /\ P d2 /\ start h d1 = start h e /\ end_ h d2 = end_ h e
    /\ end_ h d1 = mn m (start h e) (end_ h e) /\ start h d2 = mn m (start h e) (end_ h e).
Definition rim (h : heap) (P : edge -> Prop) (bd : point -> point -> Prop) (e : edge) : Prop := P e /\ bd (start h e) (end_ h e).
Record binv (st : pstate) (P : edge -> Prop) (m : map) (bd : point -> point -> Prop) (L : list point) : Prop := Binv {
  b_rep : rep (p_heap st) P S m;
  b_car : carved S m bd;
  b_cycle : cycle bd L;
  b_left : rim (p_heap st) P bd (left_side (p_tri st));
  b_right : rim (p_heap st) P bd (opposite (right_side (p_tri st)));
  b_pts : forall u, In u L -> In u (p_points st);
  b_bp0 : incl bp0 (p_points st);
  b_clear : forall u w, bd u w -> clear u w;
  b_wind : forall q, HQ q -> wsum q (ces L) = 1%Z;
  b_cands : (forall k e, In (k, e) (p_cands st) -> rim (p_heap st) P bd e) /\ NoDup (List.map snd (p_cands st));
  b_dict : forall e nb, In (e, nb) (p_neighbours st) -> rim (p_heap st) P bd e /\ nb_ok (p_heap st) P m e nb;
  b_all : forall e, rim (p_heap st) P bd e -> exists nb, In (e, nb) (p_neighbours st) }.

Lemma nb_edges h P m bd e : rep h P S m -> carved S m bd -> rim h P bd e -> nb_ok h P m e (to_edge_neighbours h e).
Proof.
  intros R K (Pe & Be). destruct (bd_triangle S m bd K _ _ Be) as (t & E1 & E2 & e1 & e2 & n1 & n2 & n3).
  set (u := start h e) in *. set (w := end_ h e) in *. set (v := mn m u w) in *.
  destruct (rp_lfs _ _ _ _ R _ Pe) as (P1 & s1 & f1). fold u w v in s1, f1.
  pose proof (rp_opp _ _ _ _ R _ P1) as Po. destruct (rp_lfs _ _ _ _ R _ Po) as (P2 & s2 & f2).
  rewrite end_opposite, start_opposite, s1, f1 in f2. rewrite start_opposite, f1 in s2. fold u in f2. rewrite e2 in f2.
  unfold to_edge_neighbours. change (left_from_start h e) with (lfs h e).
  assert (O : orientation_eqb (orientation_of h e (end_ h (lfs h e))) COUNTERCLOCKWISE = true).
  { apply orientation_eqb_eq. unfold orientation_of. fold u w. rewrite f1. apply orientation_ccw. apply t. }
  rewrite O. exists (lfs h e), (right_from_end h (lfs h e)). split; [reflexivity|]. repeat split; auto.
Qed.

Lemma add_neighbours_spec fuel h (R : edge -> Prop) (Nb : edge -> list edge -> Prop) d1 d2 cands d cands' d' : d1 <> d2 ->
  ~ In d1 (List.map snd cands) -> ~ In d2 (List.map snd cands) ->
  (forall k e, In (k, e) cands -> R e) -> NoDup (List.map snd cands) -> (forall e nb, In (e, nb) d -> R e /\ Nb e nb) ->
  R d1 -> R d2 -> Nb d1 (to_edge_neighbours h d1) -> Nb d2 (to_edge_neighbours h d2) ->
  add_neighbours fuel h [d1; d2] cands d = Ok (cands', d') ->
  (forall k e, In (k, e) cands' -> R e) /\ NoDup (List.map snd cands') /\ (forall e nb, In (e, nb) d' -> R e /\ Nb e nb)
  /\ (forall e, (exists nb, In (e, nb) d) \/ e = d1 \/ e = d2 -> exists nb, In (e, nb) d').
Proof.
  intros n12 N1 N2 C1 C2 D1 R1 R2 B1 B2 H. cbn [add_neighbours] in H.
  apply rbind_ok in H. destruct H as (c1 & H1 & H). apply rbind_ok in H. destruct H as (c2 & H2 & H). injection H as <- <-.
  destruct (kset_add_spec _ _ _ _ _ C2 N1 H1) as (C3 & C4 & _).
  assert (N2' : ~ In d2 (List.map snd c1)).
  { intros h'. apply in_map_iff in h'. destruct h' as ((k & e) & <- & h'). cbn [snd] in *. destruct (C4 _ _ h') as [x| ->]; [|congruence].
    apply N2. apply (in_map snd _ _ x). }
  destruct (kset_add_spec _ _ _ _ _ C3 N2' H2) as (C5 & C6 & _).
  split; [|split; [exact C5|split]].
  - intros k e h'. destruct (C6 _ _ h') as [x| ->]; [|exact R2]. destruct (C4 _ _ x) as [y| ->]; [eapply C1, y|exact R1].
  - unfold dict_set. intros e nb [h'|h']; [injection h' as <- <-; auto|]. apply filter_In in h'. destruct h' as ([h'|h'] & _); [injection h' as <- <-; auto|].
    apply filter_In in h'. apply D1, h'.
  - unfold dict_set. intros e h'. destruct (edge_eq_dec e d2) as [-> |ne2]; [eexists; left; reflexivity|].
    destruct (edge_eq_dec e d1) as [-> |ne1]; [eexists; right; apply filter_In; split; [left; reflexivity|]; cbn [fst]; apply negb_true_iff, edge_eqb_neq, ne2|].
    destruct h' as [(nb & h')|[h'|h']]; try contradiction. exists nb. right. apply filter_In. split; [|cbn [fst]; apply negb_true_iff, edge_eqb_neq, ne2].
    right. apply filter_In. split; [exact h'|]. cbn [fst]. apply negb_true_iff, edge_eqb_neq, ne1.
Qed.

Lemma mem_point_false p l : mem_point p l = false -> ~ In p l.
Proof.
  intros H I. unfold mem_point in H. assert (X : existsb (point_eqb p) l = true); [|congruence].
  apply existsb_exists. exists p. split; [exact I|apply point_eqb_eq; reflexivity].
Qed.

Lemma filter_length_le' {A} (f : A -> bool) l : length (filter f l) <= length l.
Proof. induction l as [|x l IH]; cbn [filter length]; [lia|]. destruct (f x); cbn [length]; lia. Qed.
Lemma kset_popmax_length s e s' : kset_popmax s = Ok (e, s') -> length s' < length s.
Proof.
  intros H. destruct s as [|x s]; [discriminate|]. cbn [kset_popmax] in H.
  pose proof (kset_max_in s x) as K. destruct (kset_max x s) as (k & e0). injection H as <- <-.
  change (if negb (key_eqb (fst x) k) then _ else _) with (filter (fun ke => negb (key_eqb (fst ke) k)) (x :: s)).
  assert (I : In (k, e0) (x :: s)) by (destruct K as [<- |K]; [left; reflexivity|right; exact K]).
  revert I. generalize (x :: s). induction l as [|y l IH]; [intros []|]. intros [-> |I]; cbn [filter fst length].
  - rewrite key_eqb_refl. cbn [negb]. pose proof (filter_length_le' (fun ke => negb (key_eqb (fst ke) k)) l). lia.
  - specialize (IH I). destruct (negb _); cbn [length]; lia.
Qed.
Lemma kset_add_length fuel h s e s' : kset_add fuel h s e = Ok s' -> length s' <= Datatypes.S (length s).
Proof. unfold kset_add. intros H. apply rbind_ok in H. destruct H as (k & _ & H). injection H as <-. destruct (existsb _ _); cbn [length]; lia. Qed.
Lemma add_neighbours_length fuel h d1 d2 c d c' d' : add_neighbours fuel h [d1; d2] c d = Ok (c', d') -> length c' <= 2 + length c.
Proof.
  cbn [add_neighbours]. intros H. apply rbind_ok in H. destruct H as (c1 & H1 & H). apply rbind_ok in H. destruct H as (c2 & H2 & H). injection H as <- <-.
  apply kset_add_length in H1, H2. lia.
Qed.
(** Every step keeps the invariant; a step that does not end the loop uses up a candidate or
    adds a vertex to the border. *)
Lemma border_step_more fuel size st P m bd L : binv st P m bd L ->
  match border_step fuel ctx hole_edges size st with
  | Ok (inl st') => exists P' m' bd' L', binv st' P' m' bd' L' /\ length (p_cands st') + 2 * length L < length (p_cands st) + 2 * length L'
      /\ incl L L' /\ length L <= length L' <= Datatypes.S (length L) /\ (length L' = length L -> bd' = bd) /\ (p_size st < size)%Z /\ (p_size st' - p_size st = Z.of_nat (length L') - Z.of_nat (length L))%Z
  | Ok (inr st') => st' = st
  | Raise x => exists h P m e, rep h P S m /\ P e /\ edge_key fuel h e = Raise x
  end.
Proof.
  intros I. pose proof I as [R K Cy Lf Rt Pts Bp Cl Wi (Cn1 & Cn2) Dc Al]. unfold border_step.
  destruct (_ <? _)%Z eqn:Small; [|reflexivity]. apply Z.ltb_lt in Small.
  destruct (kset_popmax (p_cands st)) as [(e & cands)|x] eqn:Epop.
  2: { destruct (p_cands st); [|cbn [kset_popmax] in Epop; destruct (kset_max _ _); discriminate]. injection Epop as <-. reflexivity. }
  pose proof (kset_popmax_length _ _ _ Epop) as Shorter.
  destruct (kset_popmax_spec _ _ _ Cn2 Epop) as ((k & He) & Sub & Nd & Nin). destruct (Cn1 _ _ He) as (Pe & Be).
  assert (Cn1' : forall k e, In (k, e) cands -> rim (p_heap st) P bd e) by (intros k' e' h'; eapply Cn1, Sub, h').
  set (h := p_heap st) in *.
  destruct (polygon_is_mouth ctx hole_edges h (p_points st) e) eqn:Em; cbn [negb].
  2: { exists P, m, bd, L. split; [|cbn [p_cands p_size]; split; [lia|]; split; [apply incl_refl|]; split; [lia|]; split; [reflexivity|]; lia]. split; cbn [p_heap p_tri p_points p_cands p_neighbours p_size]; auto. }
  destruct (bd_triangle S m bd K _ _ Be) as (t & E1 & E2 & e1 & e2 & n1 & n2 & n3).
  set (u := start h e) in *. set (w := end_ h e) in *. set (v := mn m u w) in *.
  destruct (rp_lfs _ _ _ _ R _ Pe) as (P1 & s1 & f1). fold u w v in s1, f1.
  unfold polygon_is_mouth in Em. change (left_from_start h e) with (lfs h e) in *. rewrite f1 in *. fold u w in Em.
  apply andb_true_iff in Em. destruct Em as (Em & M3). apply andb_true_iff in Em. destruct Em as (M1 & M2).
  apply negb_true_iff in M1, M2, M3. apply mem_point_false in M1.
  assert (NvL : ~ In v L) by (intros x; apply M1, Pts, x).
  assert (Nv : forall x, ~ bd v x) by (intros x hx; apply NvL; apply (cycle_vertex _ _ _ Cy); exists x; exact hx).
  pose proof (carved_del S m bd K u w Be Nv) as K'. fold v in K'.
  destruct (cycle_del _ u w v L Cy Be n1 NvL) as (L' & Cy' & PL & WL).
  pose proof (rep_delete _ _ _ _ R e Pe) as R'. fold u w in R'.
  set (P' := fun d => P d /\ d <> e /\ d <> opposite e) in *.
  assert (W : laws S m) by apply K.
  assert (Iv : In v S) by (apply (e_in2 _ _ W u), E1).
  pose proof (Cl _ _ Be) as Cuw.
  assert (Cv : clean v) by (apply Rest; [exact Iv|intros x; apply M1, Bp, x]).
  assert (Cl1 : clear u v) by (apply (not_crossing m); auto; apply (clear_start _ _ Cuw)).
  assert (Cl2 : clear v w).
  { assert (C0 : clear w v) by (apply (not_crossing m); auto; apply (clear_end _ _ Cuw)).
    intros s Hs (p & O1 & O2). apply (C0 s Hs). exists p. split; [exact O1|]. cbn [seg_start seg_end] in *.
    destruct O2 as (tt & t0 & t1 & X & Y). exists (1 - tt)%Qc. split; [ql|]. split; [ql|]. split; [rewrite X|rewrite Y]; ring. }
  (* an inner dart is not deleted *)
  assert (Keep : forall d a b, P d -> start h d = a -> end_ h d = b -> me (del m u w) a b -> P' d).
  { intros d a b Pd <- <- (_ & Ns). split; [exact Pd|]. unfold same_edge in Ns. split; intros ->; apply Ns; [left|right]; auto.
    rewrite start_opposite, end_opposite. auto. }
  assert (Rim' : forall d, rim h P bd d -> d <> e -> rim (delete h e) P' (bd_del bd u w v) d).
  { intros d (Pd & Bd) Nd'. assert (B' : bd_del bd u w v (start h d) (end_ h d)).
    { left. split; [exact Bd|]. intros (a1 & a2). apply Nd'. apply (rp_uniq _ _ _ _ R); auto. }
    split; [|exact B']. apply (Keep d _ _ Pd eq_refl eq_refl). apply (k_bd _ _ _ K'), B'. }
  assert (P1' : P' (lfs h e)).
  { apply (Keep _ u v P1 s1 f1). apply (k_bd _ _ _ K'). right. left. auto. }
  assert (Rim1 : rim (delete h e) P' (bd_del bd u w v) (lfs h e)).
  { split; [exact P1'|]. rewrite delete_start, delete_end, s1, f1. right. left. auto. }
  assert (NoOpp : forall d, rim h P bd d -> d <> opposite e).
  { intros d (_ & Bd) ->. rewrite start_opposite, end_opposite in Bd. apply (k_two _ _ _ K _ _ Be Bd). }
  (* the two sides of the triangulation *)
  set (rs := right_side (p_tri st)) in *. set (ls := left_side (p_tri st)) in *.
  assert (Hdel : exists t', tri_delete h (p_tri st) e = Ok (t', delete h e)
      /\ rim (delete h e) P' (bd_del bd u w v) (left_side t') /\ rim (delete h e) P' (bd_del bd u w v) (opposite (right_side t'))).
  { unfold tri_delete. fold rs ls.
    assert (Ner : e <> rs) by (intros x; apply (NoOpp _ Rt); rewrite <- x; reflexivity).
    assert (Nel : opposite e <> ls) by (intros x; apply (NoOpp _ Lf); symmetry; exact x).
    rewrite (proj2 (edge_eqb_neq e rs) Ner). cbn [orb].
    assert (X : exists r, (if edge_eqb (opposite e) rs
        then let* _ := assert_ (negb (edge_eqb rs (opposite (right_from_end h rs)))) in Ok (Tri ls (opposite (right_from_end h rs))) else Ok (p_tri st)) = Ok (Tri ls r)
        /\ rim (delete h e) P' (bd_del bd u w v) (opposite r)).
    { destruct (edge_eqb (opposite e) rs) eqn:Er.
      - apply edge_eqb_eq in Er. unfold right_from_end. rewrite <- Er, opposite_opposite.
        assert (Nx : opposite e <> opposite (lfs h e)).
        { intros x. assert (y : end_ h e = end_ h (lfs h e)) by (rewrite <- (start_opposite h e), x; apply start_opposite). rewrite f1 in y. fold w in y. congruence. }
        change (left_from_start h e) with (lfs h e).
        rewrite (proj2 (edge_eqb_neq _ _) Nx). cbn [negb assert_ rbind]. eexists. split; [reflexivity|]. rewrite opposite_opposite. exact Rim1.
      - apply edge_eqb_neq in Er. exists rs. split; [destruct (p_tri st); reflexivity|]. apply Rim'; [exact Rt|].
        intros x. apply Er. rewrite <- x, opposite_opposite. reflexivity. }
    destruct X as (r & X1 & X2). change (left_side (p_tri st)) with ls. rewrite X1. cbn [rbind left_side right_side].
    rewrite (proj2 (edge_eqb_neq (opposite e) ls) Nel), orb_false_r.
    destruct (edge_eqb e ls) eqn:El.
    - apply edge_eqb_eq in El. rewrite <- El.
      assert (Nx : e <> lfs h e) by (intros x; assert (y : w = v) by (unfold w at 1; rewrite x, f1; reflexivity); congruence).
      change (left_from_start h e) with (lfs h e).
      rewrite (proj2 (edge_eqb_neq _ _) Nx). cbn [negb assert_ rbind]. eexists. split; [reflexivity|]. split; [exact Rim1|exact X2].
    - apply edge_eqb_neq in El. cbn [rbind]. eexists. split; [reflexivity|]. split; [|exact X2]. cbn [left_side]. apply Rim'; [exact Lf|intros x; apply El; symmetry; exact x]. }
  destruct Hdel as (t' & Hdel & Lf' & Rt'). rewrite Hdel. cbn [rbind].
  destruct (Al e (conj Pe Be)) as (nb0 & Hnb0).
  assert (Hpop : exists nb, dict_pop (p_neighbours st) e = Ok (nb, filter (fun kv => negb (edge_eqb (fst kv) e)) (p_neighbours st)) /\ nb_ok h P m e nb).
  { unfold dict_pop. destruct (find _ _) as [(e' & nb)|] eqn:Ef.
    - apply find_some in Ef. destruct Ef as (Ef & Eq). cbn [fst] in Eq. apply edge_eqb_eq in Eq. subst e'. exists nb. split; [reflexivity|]. apply (Dc e nb Ef).
    - exfalso. apply (find_none _ _ Ef) in Hnb0. cbn [fst] in Hnb0. rewrite edge_eqb_refl in Hnb0. discriminate. }
  destruct Hpop as (nb & Hpop & (d1 & d2 & -> & Pd1 & Pd2 & sd1 & fd2 & fd1 & sd2)). rewrite Hpop. cbn [rbind]. fold u w v in sd1, fd2, fd1, sd2.
  assert (Rd1 : rim (delete h e) P' (bd_del bd u w v) d1).
  { assert (B : bd_del bd u w v (start h d1) (end_ h d1)) by (rewrite sd1, fd1; right; left; auto). split; [|exact B].
    apply (Keep d1 _ _ Pd1 eq_refl eq_refl), (k_bd _ _ _ K'), B. }
  assert (Rd2 : rim (delete h e) P' (bd_del bd u w v) d2).
  { assert (B : bd_del bd u w v (start h d2) (end_ h d2)) by (rewrite sd2, fd2; right; right; auto). split; [|exact B].
    apply (Keep d2 _ _ Pd2 eq_refl eq_refl), (k_bd _ _ _ K'), B. }
  assert (n12 : d1 <> d2) by (intros x; rewrite x, sd2 in sd1; congruence).
  assert (Nc1 : ~ In d1 (List.map snd cands)).
  { intros x. apply in_map_iff in x. destruct x as ((k' & d) & <- & x). cbn [snd] in *. destruct (Cn1' _ _ x) as (_ & B). rewrite fd1 in B. apply (Nv _ (k_next _ _ _ K _ _ B)). }
  assert (Nc2 : ~ In d2 (List.map snd cands)).
  { intros x. apply in_map_iff in x. destruct x as ((k' & d) & <- & x). cbn [snd] in *. destruct (Cn1' _ _ x) as (_ & B). rewrite sd2 in B. apply (Nv _ B). }
  set (d0 := filter _ (p_neighbours st)) in *.
  destruct (add_neighbours fuel (delete h e) [d1; d2] cands d0) as [(c2 & dd)|x] eqn:Ea; cbn [rbind].
  2: { cbn [add_neighbours] in Ea. unfold kset_add in Ea.
       destruct (edge_key fuel (delete h e) d1) as [k1|x1] eqn:Ek1; cbn [rbind] in Ea.
       - destruct (edge_key fuel (delete h e) d2) as [k2|x2] eqn:Ek2; cbn [rbind] in Ea; [discriminate|]. injection Ea as <-.
         exists (delete h e), P', (del m u w), d2. split; [exact R'|]. split; [apply Rd2|exact Ek2].
       - injection Ea as <-. exists (delete h e), P', (del m u w), d1. split; [exact R'|]. split; [apply Rd1|exact Ek1]. }
  pose proof (add_neighbours_length _ _ _ _ _ _ _ _ Ea) as Longer.
  eapply (add_neighbours_spec fuel (delete h e) (rim (delete h e) P' (bd_del bd u w v)) (nb_ok (delete h e) P' (del m u w)) d1 d2 cands d0 c2 dd n12 Nc1 Nc2) in Ea.
  - destruct Ea as (A1 & A2 & A3 & A4).
    exists P', (del m u w), (bd_del bd u w v), L'. split; [|pose proof (Permutation_length PL) as Lp; cbn [length] in Lp; cbn [p_cands p_size]; split; [lia|]; split; [intros x Hx; apply (Permutation_in _ PL); right; exact Hx|]; split; [lia|]; split; [intros Same; exfalso; lia|]; lia]. split; cbn [p_heap p_tri p_points p_cands p_neighbours p_size]; auto.
    + intros x Hx. apply add_point_in. apply (Permutation_in _ (Permutation_sym PL)) in Hx. destruct Hx as [<- |Hx]; [auto|right; apply Pts, Hx].
    + intros x Hx. apply add_point_in. right. apply Bp, Hx.
    + intros a b [(B & _)|[(-> & ->)|(-> & ->)]]; auto.
    + intros q Hq. pose proof (WL q) as E. rewrite (Wi q Hq) in E. destruct (HQS q Hq) as (Sq & Bq & s & Hs & Eq).
      assert (On : on_segment q (seg_start s) (seg_end s)) by (destruct Eq as [-> | ->]; [apply on_start|apply on_end]).
      assert (q1 : q <> u) by (intros ->; apply (clear_start _ _ Cuw s Hs On)).
      assert (q2' : q <> w) by (intros ->; apply (clear_end _ _ Cuw s Hs On)).
      assert (q3' : q <> v) by (intros ->; apply (Cv s Hs On)).
      pose proof (vacant_passes S q u w v t Sq q1 q2' q3') as Z0. pose proof (passes_anti q u v). pose proof (passes_anti q v w). lia.
    + intros d Hd. assert (Hd' : rim h P bd d \/ d = d1 \/ d = d2).
      { destruct Hd as ((Pd & x1 & x2) & [(B & _)|[(a1 & a2)|(a1 & a2)]]).
        - left. split; assumption.
        - right. left. rewrite delete_start in a1. rewrite delete_end in a2. apply (rp_uniq _ _ _ _ R); auto; unfold u, w, v in *; congruence.
        - right. right. rewrite delete_start in a1. rewrite delete_end in a2. apply (rp_uniq _ _ _ _ R); auto; unfold u, w, v in *; congruence. }
      apply A4. destruct Hd' as [Hd'|Hd']; [left|right; exact Hd']. destruct (Al _ Hd') as (nb & Hnb). exists nb. apply filter_In.
      split; [exact Hnb|]. cbn [fst]. apply negb_true_iff, edge_eqb_neq. apply Hd.
  - intros k' d hd. apply Rim'; [eapply Cn1', hd|]. intros ->. apply Nin. apply (in_map snd _ _ hd).
  - exact Nd.
  - intros d nb hd. apply filter_In in hd. destruct hd as (hd & Ne). cbn [fst] in Ne. apply negb_true_iff, edge_eqb_neq in Ne.
    destruct (Dc _ _ hd) as (Rd & (f1' & f2' & -> & Pf1 & Pf2 & g1 & g2 & g3 & g4)). pose proof (Rim' _ Rd Ne) as Rd'. split; [exact Rd'|].
    destruct Rd' as (Pd' & Bd'). destruct (bd_triangle S _ _ K' _ _ Bd') as (t'' & X1 & X2 & _).
    assert (Mv : mn (del m u w) (start h d) (end_ h d) = mn m (start h d) (end_ h d)).
    { cbn [del mn]. destruct (point_eq_dec (start h d) u) as [ex|nx].
      - exfalso. apply Ne. destruct Rd as (Pd & Bd). apply (rp_uniq _ _ _ _ R); auto. rewrite ex in Bd. apply (k_fun _ _ _ K u); auto.
      - destruct (point_eq_dec (start h d) w) as [ex|_]; [|reflexivity]. rewrite ex. unfold skip1. destruct (point_eq_dec (mn m w (end_ h d)) u) as [ey|ny]; [|reflexivity].
        exfalso. destruct Rd as (Pd & Bd). pose proof (k_bd _ _ _ K _ _ Bd) as Ed. rewrite ex in Ed, Bd.
        destruct (l_next _ _ W _ _ Ed) as (_ & p1). destruct (l_next _ _ W _ _ E2) as (_ & p2). rewrite ey in p1. rewrite e1 in p2.
        assert (ez : end_ h d = v) by congruence. rewrite ez in Bd. apply (Nv _ (k_next _ _ _ K _ _ Bd)). }
    rewrite !delete_start, !delete_end, Mv in *.
    exists f1', f2'. split; [reflexivity|]. split; [apply (Keep _ _ _ Pf1 g1 g3), X1|]. split.
    { apply (Keep _ _ _ Pf2 g4 g2). apply (l_sym _ _ (k_laws _ _ _ K')), X2. }
    rewrite !delete_start, !delete_end, Mv. auto.
  - exact Rd1.
  - exact Rd2.
  - apply (nb_edges _ _ _ (bd_del bd u w v)); auto.
  - apply (nb_edges _ _ _ (bd_del bd u w v)); auto.
Qed.
Lemma border_step_keeps fuel size st : (exists P m bd L, binv st P m bd L) ->
  match border_step fuel ctx hole_edges size st with
  | Ok (inl st') | Ok (inr st') => exists P m bd L, binv st' P m bd L
  | Raise x => exists h P m e, rep h P S m /\ P e /\ edge_key fuel h e = Raise x
  end.
Proof.
  intros (P & m & bd & L & I). pose proof (border_step_more fuel size st P m bd L I) as H.
  destruct (border_step _ _ _ _ _) as [[st'|st']|x]; [|subst st'; exists P, m, bd, L; exact I|exact H].
  destruct H as (P' & m' & bd' & L' & H & _). exists P', m', bd', L'. exact H.
Qed.
End B.
