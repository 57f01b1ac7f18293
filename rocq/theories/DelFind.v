(** The base edge, and the whole merge. *)
From Coq Require Import List Lia.
From Verif Require Import Base Geometry Spec QcTac QcFast GeomProofs LoopProofs QuadEdge QuadProofs Triangulation
  DelGeo DelCyc DelMap DelOps DelMir DelCand DelMerge DelDone DelTangent DelStart DelHeap DelLoop.
From Verif Require TriProofs.
Import ListNotations.
Open Scope Qc_scope.

(** A finished triangulation. *)
Record comp (h : heap) (P : edge -> Prop) (S : list point) (m : map) (ep : Qc) (t : Triangulation.tri) : Prop := Comp {
  c_rep : rep h P S m;
  c_dt : DT S m;
  c_left : P (left_side t) /\ left_ok S m ep (start h (left_side t)) (end_ h (left_side t));
  c_right : P (right_side t) /\ right_ok S m ep (start h (right_side t)) (end_ h (right_side t)) }.

Lemma comp_frame h P Q S m ep t h' : comp h Q S m ep t -> frame h P h' -> (forall d, Q d -> ~ P d) -> comp h' Q S m ep t.
Proof.
  intros [H1 H2 (H3 & H3') (H4 & H4')] F D. pose proof F as (Fc & Fw & Fl & Fs).
  assert (Ps : forall d, Q d -> start h' d = start h d) by (intros d Hd; apply Fs, (rp_live _ _ _ _ H1 _ Hd)).
  assert (Pe : forall d, Q d -> end_ h' d = end_ h d) by (intros d Hd; apply Ps, (rp_opp _ _ _ _ H1), Hd).
  split; [apply (rep_frame h P Q S m h'); auto|exact H2| |]; rewrite Ps, Pe by assumption; auto.
Qed.

Section M.
Context (L R : list point) (ep tau : Qc) (mL mR : map).
Context (HL : forall q, In q L -> phi ep q < tau) (HR : forall q, In q R -> tau < phi ep q).
Context (injL : forall a b, In a L -> In b L -> phi ep a = phi ep b -> a = b).
Context (injR : forall a b, In a R -> In b R -> phi ep a = phi ep b -> a = b).
Notation S := (L ++ R).

Lemma search_spec fuel h PL PR t1 t2 (body := fun st : edge * edge =>
      let '(rs, ls) := st in
      if orientation_eqb (orientation_of h rs (start h ls)) COUNTERCLOCKWISE
      then Ok (inl (left_from_end h rs, ls))
      else if orientation_eqb (orientation_of h ls (start h rs)) CLOCKWISE
      then Ok (inl (rs, right_from_end h ls))
      else Ok (inr (rs, ls))) rs ls :
  comp h PL L mL ep t1 -> comp h PR R mR ep t2 ->
  while_ fuel body (right_side t1, left_side t2) = Ok (rs, ls) ->
  PL rs /\ PR ls /\ lside L mL ep (start h rs) (end_ h rs) (start h ls) /\ rside R mR ep (start h ls) (end_ h ls) (start h rs)
  /\ cross (start h rs) (end_ h rs) (start h ls) <= 0 /\ 0 <= cross (start h ls) (end_ h ls) (start h rs).
Proof.
  intros [A1 A2 _ (A4 & A4')] [B1 B2 (B3 & B3') _].
  assert (IL : forall d, PL d -> In (start h d) L) by (intros d Hd; apply (l_in _ _ (d_laws _ _ A2) _ _ (rp_me _ _ _ _ A1 _ Hd))).
  assert (IR : forall d, PR d -> In (start h d) R) by (intros d Hd; apply (l_in _ _ (d_laws _ _ B2) _ _ (rp_me _ _ _ _ B1 _ Hd))).
  assert (FL : forall d, PR d -> forall q, In q L -> phi ep q < phi ep (start h d)).
  { intros d Hd. apply (farL L R ep tau HL HR), IR, Hd. }
  assert (FR : forall d, PL d -> forall q, In q R -> phi ep (start h d) < phi ep q).
  { intros d Hd. apply (farR L R ep tau HL HR), IL, Hd. }
  apply (while_inv (fun st : edge * edge => PL (fst st) /\ PR (snd st) /\
      lside L mL ep (start h (fst st)) (end_ h (fst st)) (start h (snd st)) /\
      rside R mR ep (start h (snd st)) (end_ h (snd st)) (start h (fst st)))
    (fun x => x = Ok (rs, ls) -> PL rs /\ PR ls /\ lside L mL ep (start h rs) (end_ h rs) (start h ls) /\ rside R mR ep (start h ls) (end_ h ls) (start h rs)
  /\ cross (start h rs) (end_ h rs) (start h ls) <= 0 /\ 0 <= cross (start h ls) (end_ h ls) (start h rs))).
  - unfold body. intros (a, b) (Ha & Hb & Xa & Xb). cbn [fst snd] in *.
    destruct (orientation_eqb (orientation_of h a (start h b)) COUNTERCLOCKWISE) eqn:O1.
    + unfold orientation_of in O1. apply ccw_iff in O1.
      destruct (rep_rfs_of h PL L mL A1 (opposite a) (end_ h a) (start h a)) as (Y1 & Y2 & Y3);
        [apply (rp_opp _ _ _ _ A1), Ha|reflexivity|apply end_opposite|].
      cbn [fst snd]. change (left_from_end h a) with (right_from_start h (opposite a)).
      rewrite Y2, Y3. split; [exact Y1|]. split; [exact Hb|]. split.
      * apply (lside_move L mL ep A2); auto.
      * apply (rside_keep R mR ep B2 _ _ (start h a)); auto.
        -- apply FL; auto. apply (IL (opposite a)), (rp_opp _ _ _ _ A1), Ha.
        -- rewrite <- (cross_rot (start h b)). exact O1.
    + apply (bool_false _ _ (ccw_iff _ _ _)) in O1.
      destruct (orientation_eqb (orientation_of h b (start h a)) CLOCKWISE) eqn:O2.
      * unfold orientation_of in O2. apply cw_iff in O2.
        destruct (rep_lfs_of h PR R mR B1 (opposite b) (end_ h b) (start h b)) as (Y1 & Y2 & Y3);
          [apply (rp_opp _ _ _ _ B1), Hb|reflexivity|apply end_opposite|].
        cbn [fst snd]. change (right_from_end h b) with (left_from_start h (opposite b)).
        rewrite Y2, Y3. split; [exact Ha|]. split; [exact Y1|]. split.
        -- apply (lside_keep L mL ep _ _ (start h b)); auto.
           ++ apply FR; auto. apply (IR (opposite b)), (rp_opp _ _ _ _ B1), Hb.
           ++ rewrite <- (cross_rot (start h a)). exact O2.
        -- apply (rside_move R mR ep B2); auto.
      * apply (bool_false _ _ (cw_iff _ _ _)) in O2. intros e. injection e as <- <-.
        repeat (split; [assumption|]). split; apply Qcnot_lt_le; auto.
  - intros e; discriminate e.
  - cbn [fst snd]. split; [exact A4|]. split; [exact B3|]. split; [apply right_lside; auto|apply left_rside; auto].
Qed.
Theorem merge_spec fuel h PL PR t1 t2 t h' : comp h PL L mL ep t1 -> comp h PR R mR ep t2 ->
  merge fuel h t1 t2 = Ok (t, h') ->
  exists P' m', comp h' P' S m' ep t /\ ext S h (fun d => PL d \/ PR d) h' P'.
Proof.
  intros CL CR. unfold merge, find_base_edge. intros E.
  apply TriProofs.rbind_ok in E as ([[[base self'] other'] h1] & E1 & E2).
  apply TriProofs.rbind_ok in E1 as ((rs, ls) & E1 & E3).
  apply (search_spec fuel h PL PR t1 t2 rs ls CL CR) in E1 as (Ha & Hb & Xa & Xb & Y1 & Y2).
  pose proof CL as [A1 A2 (A3 & A3') (A4 & A4')]. pose proof CR as [B1 B2 (B3 & B3') (B4 & B4')].
  pose proof (rep_union h PL PR L R mL mR ep tau HL HR A1 B1) as U.
  set (l := start h rs) in *. set (y := end_ h rs) in *. set (r := start h ls) in *. set (z := end_ h ls) in *.
  pose proof (first_inv L R ep tau mL mR HL HR A2 B2 injL injR l y r z Xa Xb Y1 Y2) as I.
  pose proof (base_below L R ep tau mL mR HL HR A2 B2 injL injR l y r z Xa Xb Y1 Y2) as Bl.
  pose proof (l_in _ _ (d_laws _ _ A2) _ _ (rp_me _ _ _ _ A1 _ Ha)) as Hl. fold l in Hl.
  pose proof (l_in _ _ (d_laws _ _ B2) _ _ (rp_me _ _ _ _ B1 _ Hb)) as Hr. fold r in Hr.
  destruct (union_L L R ep tau mL mR HL HR (d_laws _ _ B2) l Hl) as (_ & _ & ue1).
  destruct (union_R L R ep tau mL mR HL HR (d_laws _ _ A2) r Hr) as (_ & up2 & ue2).
  assert (Nrl : r <> l) by (intros e; apply (apart L R ep tau HL HR l); [exact Hl|rewrite <- e; exact Hr]).
  pose proof (rep_connect h _ S _ U (opposite ls) rs (or_intror (rp_opp _ _ _ _ B1 _ Hb)) (or_introl Ha)) as K.
  rewrite end_opposite, start_opposite in K. fold r z l y in K. cbn zeta in K. rewrite up2 in K.
  specialize (K Nrl).
  assert (NE : ~ me (union L mL mR) r l).
  { intros h0. apply ue2 in h0. apply (apart L R ep tau HL HR l); [exact Hl|]. apply (e_in2 _ _ (d_laws _ _ B2) _ _ h0). }
  specialize (K NE (i_laws _ _ _ _ _ _ _ _ I)).
  destruct (connect h (opposite ls) rs) as (base0, h10). destruct K as (K1 & K2 & K3 & K4 & K5).
  injection E3 as -> E4 E5 ->.
  assert (St : state L R mL mR h1 (fun d => (PL d \/ PR d) \/ d = base \/ d = opposite base) base (first_map L mL mR l y r z) l r []).
  { split; auto. }
  assert (Ex1 : ext S h (fun d => PL d \/ PR d) h1 (fun d => (PL d \/ PR d) \/ d = base \/ d = opposite base)).
  { split; [exact K2|]. split; [intros d [Hd|[->| ->]]; auto|auto]. }
  apply TriProofs.rbind_ok in E2 as (h2 & E2 & E6). injection E6 as E6 ->.
  destruct (connect_parts_spec L R ep tau mL mR HL HR A2 B2 fuel h1 base _ _ l r [] h' St E2) as (P' & m' & R' & D' & Ex2).
  exists P', m'. split; [|eapply ext_trans; eassumption].
  pose proof Ex2 as ((c2 & _ & _ & s2) & _ & k2). pose proof K2 as (c1 & _ & _ & s1).
  pose proof (rp_live _ _ _ _ K1) as Lv.
  assert (T1 : forall d, PL d \/ PR d -> start h1 d = start h d /\ end_ h1 d = end_ h d).
  { intros d Hd. pose proof (rp_live _ _ _ _ U d Hd) as (V & _). split; [apply s1, V|]. apply s1, V. }
  assert (T2 : forall d, (PL d \/ PR d) \/ d = base \/ d = opposite base -> start h' d = start h1 d /\ end_ h' d = end_ h1 d).
  { intros d Hd. pose proof (Lv d Hd) as (V & _). split; apply s2, V. }
  assert (Kp : forall d, (PL d \/ PR d) \/ d = base \/ d = opposite base -> DE S (start h1 d) (end_ h1 d) -> P' d).
  { intros d Hd D. apply k2; auto. apply (Lv d Hd). }
  destruct (T1 rs (or_introl Ha)) as (Sl & _). fold l in Sl. destruct (T1 ls (or_intror Hb)) as (Sr & _). fold r in Sr.
  destruct (T1 (left_side t1) (or_introl A3)) as (S1 & S1'). destruct (T1 (right_side t2) (or_intror B4)) as (S2 & S2').
  pose proof (left_side_merged L R ep tau HL HR mL m' _ _ l r (d_laws _ _ A2) D' A3' Hl Hr Bl) as ML.
  pose proof (right_side_merged L R ep tau mR m' _ _ l r HL HR (d_laws _ _ B2) D' B4' Hl Hr Bl) as MR.
  assert (XL : P' (left_side t) /\ left_ok S m' ep (start h' (left_side t)) (end_ h' (left_side t))).
  { subst t. cbn [left_side]. rewrite <- E4, Sl, S1. destruct (point_eqb l (start h (left_side t1))) eqn:Q.
    - apply point_eqb_eq in Q. cbn [left_side]. destruct (point_eq_dec l (start h (left_side t1))) as [_|n]; [|contradiction].
      destruct (T2 (opposite base)) as (e1 & e2); [auto|]. rewrite e1, e2, start_opposite, end_opposite, K4, K5. split; [|exact ML].
      apply Kp; [auto|]. rewrite start_opposite, end_opposite, K4, K5. apply left_DE, ML.
    - cbn [left_side]. destruct (point_eq_dec l (start h (left_side t1))) as [e|n]; [apply point_eqb_eq in e; congruence|].
      destruct (T2 (left_side t1)) as (e1 & e2); [auto|]. rewrite e1, e2, S1, S1'. split; [|exact ML].
      apply Kp; [auto|]. rewrite S1, S1'. apply left_DE, ML. }
  assert (XR : P' (right_side t) /\ right_ok S m' ep (start h' (right_side t)) (end_ h' (right_side t))).
  { subst t. cbn [right_side]. rewrite <- E5, Sr, S2. destruct (point_eqb r (start h (right_side t2))) eqn:Q.
    - apply point_eqb_eq in Q. cbn [right_side]. destruct (point_eq_dec r (start h (right_side t2))) as [_|n]; [|contradiction].
      destruct (T2 base) as (e1 & e2); [auto|]. rewrite e1, e2, K4, K5. split; [|exact MR].
      apply Kp; [auto|]. rewrite K4, K5. apply right_DE, MR.
    - cbn [right_side]. destruct (point_eq_dec r (start h (right_side t2))) as [e|n]; [apply point_eqb_eq in e; congruence|].
      destruct (T2 (right_side t2)) as (e1 & e2); [auto|]. rewrite e1, e2, S2, S2'. split; [|exact MR].
      apply Kp; [auto|]. rewrite S2, S2'. apply right_DE, MR. }
  split; auto.
Qed.
End M.
