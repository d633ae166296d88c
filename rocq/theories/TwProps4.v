(** C87: proper motion *)
From Verif Require Import Base TwModel RBase.
From Coq Require Import Reals Lra.
(** ** C87 *)
Section Motion.
  Local Open Scope R_scope.
  Variables (cs sn : R -> R) (lonlat : R * R * R -> R * R) (earth : R -> R * R * R) (rpm : R).
  (** a row with everything needed for the correction *)
  Definition complete (r : pmrow RF) : bool := match p_plx RF r, p_pmra RF r, p_pmdec RF r with Some _, Some _, Some _ => true | _, _, _ => false end.
  (** Without an epoch nothing changes; with one exactly the complete rows remain, in order, only their position changes *)
  Theorem C87_rows epoch cat :
    let out := s3_epoch RF cs sn lonlat earth rpm epoch cat in
    match epoch with
    | None => out = cat
    | Some e => e <> 0 ->
        Forall2 (fun r r' => p_plx RF r' = p_plx RF r /\ p_pmra RF r' = p_pmra RF r /\ p_pmdec RF r' = p_pmdec RF r /\ p_epoch RF r' = p_epoch RF r)
          (filter complete cat) out
    end.
  Proof.
    destruct epoch as [e|]; cbn [s3_epoch]; [|reflexivity]. intros He. cbn [RF feq fzero].
    destruct (Reqb e 0) eqn:E; [apply Reqb_spec in E; contradiction|]. clear.
    unfold correct_pm. induction cat as [|r cat IH]; cbn [filter flat_map]; [constructor|]. unfold complete at 1.
    destruct (p_plx RF r) as [x|] eqn:Ex; [|assumption]. destruct (p_pmra RF r) as [a|] eqn:Ea; [|assumption]. destruct (p_pmdec RF r) as [d|] eqn:Ed; [|assumption].
    destruct (lonlat _) as [lon lat]. cbn [app]. constructor; [|assumption]. cbn. rewrite Ex, Ea, Ed. now split; [|split; [|split]].
  Qed.
  (** The displacement is tangential: east by proper motion in right ascension minus the parallax factor, north likewise *)
  Definition dot3 (a b : R * R * R) : R := let '(a1, a2, a3) := a in let '(b1, b2, b3) := b in a1 * b1 + a2 * b2 + a3 * b3.
  Theorem C87_displacement epoch ra dec plx pmra pmdec ref :
    (forall x, cs x * cs x + sn x * sn x = 1) ->
    let v := moved RF cs sn earth rpm epoch ra dec plx pmra pmdec ref in
    let here := (cs dec * cs ra, cs dec * sn ra, sn dec) in
    let east := (- sn ra, cs ra, 0) in let north := (- (sn dec * cs ra), - (sn dec * sn ra), cs dec) in
    dot3 v here = 1 /\
    dot3 v east = rpm * (pmra * (epoch - ref) - plx * dot3 (earth epoch) east) /\
    dot3 v north = rpm * (pmdec * (epoch - ref) - plx * dot3 (earth epoch) north).
  Proof.
    intros H. pose proof (H ra) as Ha. pose proof (H dec) as Hd.
    unfold moved, vadd, vsub, vscale, xyz, rahat, dechat, vdot, dot3. cbn [RF fadd fsub fmul fzero]. destruct (earth epoch) as [[e1 e2] e3].
    set (ca := cs ra) in *. set (sa := sn ra) in *. set (cd := cs dec) in *. set (sd := sn dec) in *. clearbody ca sa cd sd.
    cbn zeta. set (A := rpm * (pmra * (epoch - ref) - plx * (e1 * - sa + e2 * ca + e3 * 0))).
    set (B := rpm * (pmdec * (epoch - ref) - plx * (e1 * - (sd * ca) + e2 * - (sd * sa) + e3 * cd))).
    assert (N1 : cd * ca * (cd * ca) + cd * sa * (cd * sa) + sd * sd = 1).
    { replace (_ + _) with (cd * cd * (ca * ca + sa * sa) + sd * sd) by ring. rewrite Ha. lra. }
    assert (N2 : sd * ca * (sd * ca) + sd * sa * (sd * sa) + cd * cd = 1).
    { replace (_ + _) with (sd * sd * (ca * ca + sa * sa) + cd * cd) by ring. rewrite Ha. lra. }
    assert (N3 : cd * ca * (sd * ca) + cd * sa * (sd * sa) - sd * cd = 0).
    { replace (_ - _) with (sd * cd * (ca * ca + sa * sa) - sd * cd) by ring. rewrite Ha. lra. }
    split; [|split].
    - transitivity ((cd * ca * (cd * ca) + cd * sa * (cd * sa) + sd * sd) - B * (cd * ca * (sd * ca) + cd * sa * (sd * sa) - sd * cd)); [unfold B; ring|rewrite N1, N3; ring].
    - transitivity (A * (ca * ca + sa * sa)); [unfold A; ring|rewrite Ha; ring].
    - transitivity (- (cd * ca * (sd * ca) + cd * sa * (sd * sa) - sd * cd) + B * (sd * ca * (sd * ca) + sd * sa * (sd * sa) + cd * cd)); [unfold B; ring|rewrite N3, N2; ring].
  Qed.
End Motion.
Print Assumptions C87_rows.
Print Assumptions C87_displacement.
Local Open Scope R_scope.
Example C87_displacement_ex :
  let v := moved RF cos sin (fun _ => (1, 0, 0)) 2 5 0 0 0 3 4 1 in dot3 v (- sin 0, cos 0, 0) = 2 * (3 * (5 - 1) - 0 * dot3 (1, 0, 0) (- sin 0, cos 0, 0)).
Proof. apply (C87_displacement cos sin (fun _ => (1, 0, 0))). intros x. pose proof (sin2_cos2 x). unfold Rsqr in *. lra. Qed.
Example C87_rows_ex : filter complete [{| p_ra := 1 : RF; p_dec := 2 : RF; p_plx := None; p_pmra := Some (1 : RF); p_pmdec := Some (1 : RF); p_epoch := 2000 : RF |};
  {| p_ra := 1 : RF; p_dec := 2 : RF; p_plx := Some (0 : RF); p_pmra := Some (1 : RF); p_pmdec := Some (1 : RF); p_epoch := 2000 : RF |}]
  = [{| p_ra := 1 : RF; p_dec := 2 : RF; p_plx := Some (0 : RF); p_pmra := Some (1 : RF); p_pmdec := Some (1 : RF); p_epoch := 2000 : RF |}].
Proof. reflexivity. Qed.
