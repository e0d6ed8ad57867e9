(** Model of the movement part of src/gcode_export/gcodeExport.cpp.

    The text that is written is modelled as a list of commands; numbers in commands are the exact
    values that are then printed (see TextNum_Model.v for the printing).  Doubles are exact rationals.
    Not modelled: the flavors BFB, MACH3 and MAKERBOT, the time estimate, what is sent to the front end, the
    bounding box, and custom G-code around tool changes (assumed empty). *)
From Coq Require Import ZArith QArith Qabs.
From stdpp Require Import list.
From Verif Require Import Common.

Definition pt2 := (Z * Z)%type.
Record pt3 := P3 { x3 : Z; y3 : Z; z3 : Z }.

(** A line of G-code.
    [Move f xy z e]: G0/G1 with optional F, X and Y, Z, E words; [ZeroE]: G92 E0; [FwRetract]: G10;
    [FwUnretract]: G11; [Tool n]: T n; [Dwell t]: G4. *)
Inductive cmd :=
| Move (f : option Q) (xy : option pt2) (z : option Z) (e : option Q)
| ZeroE
| FwRetract
| FwUnretract
| Tool (n : nat)
| Dwell (t : Q).

(** include/gcode_export/gcodeExport.h, struct ExtruderTrainAttributes *)
Record attr := Attr {
  area : Q;               (* filament_area_ *)
  noffset : pt2;          (* nozzle_offset_ *)
  firmware : bool;        (* machine_firmware_retract_ *)
  retr : Q;               (* retraction_e_amount_current_ *)
  retr_start : Q;         (* retraction_e_amount_at_e_start_ *)
  prime : Q;              (* prime_volume_ *)
  prime_speed : Q;        (* last_retraction_prime_speed_ *)
  vols : list Q;          (* extruded_volume_at_previous_n_retractions_ *)
  filament : Q            (* total_filament_ *)
}.
(** the changing members of GCodeExport, and the commands written so far *)
Record gst := G {
  pos : pt3;                 (* current_position_ *)
  layer_z : Z;               (* current_layer_z_ *)
  cur_e : Q;                 (* current_e_value_ *)
  e_off : Q;                 (* current_e_offset_ *)
  speed : Q;                 (* current_speed_ *)
  hop : Z;                   (* is_z_hopped_ *)
  cur : nat;                 (* current_extruder_ *)
  attrs : nat -> attr;       (* extruder_attr_ *)
  leftover : option (Q * Q); (* z_hop_prime_leftover_: amount, ratio *)
  max_off : Q;               (* max_extrusion_offset_ *)
  off_factor : Q;            (* extrusion_offset_factor_ *)
  out : list cmd
}.
(** RetractionConfig.h *)
Record retraction_config := RConfig {
  rdistance : Q; rspeed : Q; rprime_speed : Q; rprime_volume : Q; rwindow : Q; rcount_max : nat }.
(** WipeScriptConfig.h *)
Record wipe_config := WConfig {
  w_retraction : option retraction_config; w_hop : option (Z * Q); w_brush_x : Z; w_distance : Z;
  w_repeat : nat; w_speed : Q; w_pause : Q }.

Definition set_pos st p := G p (layer_z st) (cur_e st) (e_off st) (speed st) (hop st) (cur st) (attrs st) (leftover st) (max_off st) (off_factor st) (out st).
Definition set_layer_z st z := G (pos st) z (cur_e st) (e_off st) (speed st) (hop st) (cur st) (attrs st) (leftover st) (max_off st) (off_factor st) (out st).
Definition set_e st e := G (pos st) (layer_z st) e (e_off st) (speed st) (hop st) (cur st) (attrs st) (leftover st) (max_off st) (off_factor st) (out st).
Definition set_e_off st o := G (pos st) (layer_z st) (cur_e st) o (speed st) (hop st) (cur st) (attrs st) (leftover st) (max_off st) (off_factor st) (out st).
Definition set_speed st s := G (pos st) (layer_z st) (cur_e st) (e_off st) s (hop st) (cur st) (attrs st) (leftover st) (max_off st) (off_factor st) (out st).
Definition set_hop st h := G (pos st) (layer_z st) (cur_e st) (e_off st) (speed st) h (cur st) (attrs st) (leftover st) (max_off st) (off_factor st) (out st).
Definition set_cur st c := G (pos st) (layer_z st) (cur_e st) (e_off st) (speed st) (hop st) c (attrs st) (leftover st) (max_off st) (off_factor st) (out st).
Definition set_attrs st a := G (pos st) (layer_z st) (cur_e st) (e_off st) (speed st) (hop st) (cur st) a (leftover st) (max_off st) (off_factor st) (out st).
Definition set_leftover st l := G (pos st) (layer_z st) (cur_e st) (e_off st) (speed st) (hop st) (cur st) (attrs st) l (max_off st) (off_factor st) (out st).
Definition set_flow st m f := G (pos st) (layer_z st) (cur_e st) (e_off st) (speed st) (hop st) (cur st) (attrs st) (leftover st) m f (out st).
Definition emit st c := G (pos st) (layer_z st) (cur_e st) (e_off st) (speed st) (hop st) (cur st) (attrs st) (leftover st) (max_off st) (off_factor st) (out st ++ [c]).
Definition upd_attr st (f : attr -> attr) := set_attrs st (fun k => if Nat.eqb k (cur st) then f (attrs st k) else attrs st k).
Definition a_retr r a := Attr (area a) (noffset a) (firmware a) r (retr_start a) (prime a) (prime_speed a) (vols a) (filament a).
Definition a_prime p a := Attr (area a) (noffset a) (firmware a) (retr a) (retr_start a) p (prime_speed a) (vols a) (filament a).
Definition a_prime_speed s a := Attr (area a) (noffset a) (firmware a) (retr a) (retr_start a) (prime a) s (vols a) (filament a).
Definition a_vols v a := Attr (area a) (noffset a) (firmware a) (retr a) (retr_start a) (prime a) (prime_speed a) v (filament a).
Definition a_reset vol a := Attr (area a) (noffset a) (firmware a) (retr a) (retr a) (prime a) (prime_speed a) (map (fun v => v - vol)%Q (vols a)) (filament a + vol)%Q.
Definition me st : attr := attrs st (cur st).

Definition Qne_dec_bool (a b : Q) : bool := negb (Qeq_bool a b).
Definition Qltb (a b : Q) : bool := if Qlt_le_dec a b then true else false.
(** conversion of a double to coord_t *)
Definition Qtrunc (q : Q) : Z := Z.quot (Qnum q) (Zpos (Qden q)).

Section exporter.
  Variable relative : bool.      (* relative_extrusion_ *)
  Variable volumetric : bool.    (* is_volumetric_ *)
  (** length in mm of a difference of positions (Point3LL::vSizeMM), an arbitrary function here *)
  Variable vlen : pt3 -> Q.
  Variable speed_z_hop : nat -> Q.        (* setting "speed_z_hop" of an extruder *)
  Variable retraction_enable : nat -> bool. (* setting "retraction_enable" *)

  (** gcodeExport.cpp:493-515 *)
  Definition mm3ToE (a : attr) (mm3 : Q) : Q := if volumetric then mm3 else mm3 / area a.
  Definition mmToE (a : attr) (mm : Q) : Q := if volumetric then mm * area a else mm.
  (** gcodeExport.cpp:367-375 *)
  Definition getGcodePos (st : gst) (x y : Z) : pt2 := ((x - (noffset (me st)).1)%Z, (y - (noffset (me st)).2)%Z).
  (** gcodeExport.cpp:451-469 *)
  Definition getCurrentExtrudedVolume (st : gst) : Q :=
    let amount := if firmware (me st) then cur_e st else (cur_e st - retr_start (me st) + retr (me st))%Q in
    if volumetric then amount else (amount * area (me st))%Q.
  (** gcodeExport.cpp:529-534 *)
  Definition getTotalFilamentUsed (st : gst) (n : nat) : Q :=
    if Nat.eqb n (cur st) then (filament (attrs st n) + getCurrentExtrudedVolume st)%Q else filament (attrs st n).

  (** gcodeExport.cpp:679-694 *)
  Definition resetExtrusionValue (st : gst) : gst :=
    let st := if relative then st else emit st ZeroE in
    let volume := getCurrentExtrudedVolume st in
    set_e (upd_attr st (a_reset volume)) 0.

  (** gcodeExport.h (RetractionAmounts) and gcodeExport.cpp:858-867: new_e and diff_e *)
  Definition computeRetractionAmounts (a : attr) (distance : Q) : Q * Q := (mmToE a distance, (retr a - mmToE a distance)%Q).
  Definition has_retraction (amounts : Q * Q) : bool := negb (Qltb (Qabs amounts.2) (1 # 1000000)).
  (** gcodeExport.cpp:848-856: the E word and the new state *)
  Definition writeRawRetract (st : gst) (amounts : Q * Q) : Q * gst :=
    let st1 := set_e st (cur_e st + amounts.2)%Q in
    (if relative then amounts.2 else cur_e st1, upd_attr st1 (a_retr amounts.1)).

  (** gcodeExport.cpp:1122-1183 *)
  Definition writeFXYZE (st : gst) (sp : Q) (x y z : Z) (e : Q) (amounts : option (Q * Q)) : gst :=
    let f := if Qne_dec_bool (speed st) sp then Some (sp * 60)%Q else None in
    let st1 := if Qne_dec_bool (speed st) sp then set_speed st sp else st in
    let gp := getGcodePos st1 x y in
    let xy := if negb (Z.eqb x (x3 (pos st))) || negb (Z.eqb y (y3 (pos st))) then Some gp else None in
    let zz := if negb (Z.eqb z (z3 (pos st))) then Some z else None in
    let '(ee, st2) :=
      match amounts with
      | Some am => if has_retraction am then let r := writeRawRetract st1 am in (Some r.1, r.2) else (None, st1)
      | None => if Qne_dec_bool (e + e_off st1) (cur_e st1)
                then (Some (if relative then e + e_off st1 - cur_e st1 else e + e_off st1)%Q, set_e st1 e)
                else (None, st1)
      end in
    let xy' := match f, xy, zz, ee with None, None, None, None => Some gp | _, _, _, _ => xy end in
    set_pos (emit st2 (Move f xy' zz ee)) (P3 x y z).

  (** gcodeExport.cpp:1020-1042 *)
  Definition writeTravelXYZ (st : gst) (x y z : Z) (sp : Q) (retract_distance : option Q) : gst :=
    let amounts := match retract_distance with Some d => Some (computeRetractionAmounts (me st) d) | None => None end in
    if Z.eqb (x3 (pos st)) x && Z.eqb (y3 (pos st)) y && Z.eqb (z3 (pos st)) z
       && match amounts with Some am => negb (has_retraction am) | None => true end
    then st
    else writeFXYZE st sp x y z (cur_e st) amounts.
  (** gcodeExport.cpp:932-940 and 923-926 *)
  Definition writeTravel (st : gst) (p : pt3) (sp : Q) (retract_distance : option Q) : gst :=
    writeTravelXYZ st (x3 p) (y3 p) (z3 p + hop st)%Z sp retract_distance.
  Definition writeTravel2 (st : gst) (p : pt2) (sp : Q) : gst := writeTravel st (P3 p.1 p.2 (layer_z st)) sp None.

  (** gcodeExport.cpp:1378-1403 *)
  Definition writeZhop (st : gst) (sp : Q) (height : Z) (retract_distance : option Q) : gst :=
    let sp := if Qeq_bool sp 0 then speed_z_hop (cur st) else sp in
    let amounts := match retract_distance with Some d => computeRetractionAmounts (me st) d | None => (0, 0)%Q end in
    let st1 := set_hop st height in
    writeFXYZE st1 sp (x3 (pos st1)) (y3 (pos st1)) (layer_z st1 + height)%Z (cur_e st1) (Some amounts).

  (** gcodeExport.cpp:1338-1352; the recursive calls have ratio 0 *)
  Definition zhop_up (st : gst) (h : Z) (sp : Q) (d : option Q) : gst := if Z.ltb 0 h then writeZhop st sp h d else st.
  Definition writeZhopStart (st : gst) (h : Z) (sp : Q) (d : option Q) (ratio : Q) : gst :=
    if match d with Some _ => true | None => false end && Qltb 0 ratio && Qltb ratio 1
    then zhop_up (zhop_up st (Qtrunc (inject_Z h * ratio)) sp d) h sp d
    else zhop_up st h sp d.

  (** gcodeExport.cpp:1354-1376: without and with splitting, and with the left-over *)
  Definition zhop_down (st : gst) (sp : Q) (height : Z) (d : option Q) : gst :=
    if Z.eqb (hop st) 0 then st
    else let st1 := writeZhop st sp height d in set_pos st1 (P3 (x3 (pos st1)) (y3 (pos st1)) (layer_z st1)).
  Definition zhop_down_split (st : gst) (sp : Q) (height : Z) (d : option Q) (ratio : Q) : gst :=
    if Z.eqb (hop st) 0 then st
    else if match d with Some _ => true | None => false end && Qltb 0 ratio && Qltb ratio 1
    then zhop_down (zhop_down st sp (Qtrunc (inject_Z (hop st) * ratio)) (Some (retr (me st)))) sp 0 d
    else zhop_down st sp height d.
  Definition writeZhopEnd (st : gst) (sp : Q) (height : Z) (d : option Q) (ratio : Q) : gst :=
    let st1 := match leftover st with
               | Some l => zhop_down_split (set_leftover st None) sp height (Some l.1) l.2
               | None => st
               end in
    zhop_down_split st1 sp height d ratio.

  (** gcodeExport.cpp:1185-1245 *)
  Definition writeUnretractionAndPrime (st : gst) : gst :=
    let pv := prime (me st) in
    let pe := mm3ToE (me st) pv in
    let st1 := set_e st (cur_e st + pe)%Q in
    let f := Some (prime_speed (me st) * 60)%Q in
    let st2 :=
      if Qne_dec_bool (retr (me st)) 0 then
        if firmware (me st) then
          let st2 := emit st1 FwUnretract in
          if Qne_dec_bool pv 0
          then set_speed (emit st2 (Move f None None (Some (if relative then pe else cur_e st2)))) (prime_speed (me st))
          else st2
        else
          let st2 := set_e st1 (cur_e st1 + retr (me st))%Q in
          set_speed (emit st2 (Move f None None (Some (if relative then retr (me st) + pe else cur_e st2)%Q))) (prime_speed (me st))
      else if Qne_dec_bool pv 0
      then set_speed (emit st1 (Move f None None (Some (if relative then pe else cur_e st1)))) (prime_speed (me st))
      else st1 in
    let st3 := upd_attr st2 (a_prime 0) in
    let st4 := if Qltb 10000 (getCurrentExtrudedVolume st3) then resetExtrusionValue st3 else st3 in
    upd_attr st4 (a_retr 0).

  (** gcodeExport.cpp:1044-1120 with 927-930 and 942-950 *)
  Definition writeExtrusion (st : gst) (p : pt3) (sp mm3_per_mm : Q) (update_offset : bool) : gst :=
    if Z.eqb (x3 (pos st)) (x3 p) && Z.eqb (y3 (pos st)) (y3 p) && Z.eqb (z3 (pos st)) (z3 p) then st
    else
      let per_mm := mm3ToE (me st) mm3_per_mm in
      let st1 := if Z.ltb 0 (hop st) then writeZhopEnd st 0 0 None 0 else st in
      let diff := P3 (x3 p - x3 (pos st1)) (y3 p - y3 (pos st1)) (z3 p - z3 (pos st1)) in
      let len := vlen diff in
      let st2 := writeUnretractionAndPrime st1 in
      let offset := if Qne_dec_bool len 0
                    then let o := (sp * mm3_per_mm * off_factor st2)%Q in if Qltb (max_off st2) o then max_off st2 else o
                    else 0%Q in
      let st3 := if update_offset && Qne_dec_bool offset (e_off st2) then set_e_off st2 offset else st2 in
      writeFXYZE st3 sp (x3 p) (y3 p) (z3 p) (cur_e st3 + per_mm * len)%Q None.
  Definition writeExtrusion2 (st : gst) (p : pt2) (sp mm3_per_mm : Q) (update_offset : bool) : gst :=
    writeExtrusion st (P3 p.1 p.2 (layer_z st)) sp mm3_per_mm update_offset.

  (** gcodeExport.cpp:1264-1288: the retraction limit; the result is the new deque, or [None] if the
      retraction is refused *)
  Definition limit_retractions (cfg : retraction_config) (force : bool) (ar volume : Q) (l : list Q) : option (list Q) :=
    let l1 := take (rcount_max cfg) l in
    if negb force && Nat.eqb (rcount_max cfg) 0 then None
    else if negb force && Nat.eqb (length l1) (rcount_max cfg)
            && match last l1 with Some b => Qltb volume (b + rwindow cfg * ar) | None => false end
    then None
    else let l2 := volume :: l1 in
         Some (if Nat.eqb (length l2) (rcount_max cfg + 1) then take (rcount_max cfg) l2 else l2).

  (** gcodeExport.cpp:1247-1336 *)
  Definition writeRetraction (st : gst) (cfg : retraction_config) (force extruder_switch : bool) (d : option Q) : bool * gst :=
    match limit_retractions cfg force (area (me st)) (getCurrentExtrudedVolume st) (vols (me st)) with
    | None => (false, upd_attr st (a_vols (take (rcount_max cfg) (vols (me st)))))
    | Some l =>
        let st1 := upd_attr st (a_vols l) in
        let amounts := computeRetractionAmounts (me st1) (default (rdistance cfg) d) in
        if negb (has_retraction amounts) then (true, st1)
        else if firmware (me st1) then
          if extruder_switch && Qne_dec_bool (retr (me st1)) 0 then (true, st1)
          else (true, upd_attr (upd_attr (emit st1 FwRetract) (a_retr amounts.1)) (fun a => a_prime (prime a + rprime_volume cfg)%Q a))
        else
          let sp := if Qltb amounts.2 0 then rspeed cfg else prime_speed (me st1) in
          let '(e, st2) := writeRawRetract st1 amounts in
          let st3 := set_speed (emit st2 (Move (Some (sp * 60)%Q) None None (Some e))) sp in
          (true, upd_attr (upd_attr st3 (a_prime_speed (rprime_speed cfg))) (fun a => a_prime (prime a + rprime_volume cfg)%Q a))
    end.

  (** gcodeExport.cpp:1486-1535, custom codes empty *)
  Definition startExtruder (st : gst) (n : nat) : gst :=
    let st1 := if Nat.eqb n (cur st) then st else emit st (Tool n) in
    let o := noffset (attrs st1 n) in let o0 := noffset (me st1) in
    let p := pos st1 in
    let st2 := set_cur (set_pos st1 (P3 (x3 p + (o.1 - o0.1)) (y3 p + (o.2 - o0.2)) (z3 p))) n in
    let st3 := resetExtrusionValue st2 in
    set_pos st3 (P3 (x3 (pos st3)) (y3 (pos st3)) (z3 (pos st3) + 1)).
  (** gcodeExport.cpp:1537-1570 *)
  Definition switchExtruder (st : gst) (n : nat) (cfg : retraction_config) (perform_z_hop : Z) : gst :=
    if Nat.eqb (cur st) n then st
    else
      let st1 := if retraction_enable (cur st) then (writeRetraction st cfg true true None).2 else st in
      let st2 := if Z.ltb 0 perform_z_hop then writeZhopStart st1 perform_z_hop 0 None 0 else st1 in
      startExtruder (resetExtrusionValue st2) n.

  (** gcodeExport.cpp:2082-2122 *)
  Fixpoint wipe_moves (n i : nat) (st : gst) (dist : Z) (sp : Q) : gst :=
    match n with
    | O => st
    | S n' =>
        let x := (x3 (pos st) + (if Nat.odd i then - dist else dist))%Z in
        wipe_moves n' (S i) (writeTravel2 st (x, y3 (pos st)) sp) dist sp
    end.
  Definition insertWipeScript (st : gst) (w : wipe_config) : gst :=
    let prev := pos st in
    let st1 := match w_retraction w with Some c => (writeRetraction st c false false None).2 | None => st end in
    let st2 := match w_hop w with Some (h, sp) => writeZhopStart st1 h sp None 0 | None => st1 end in
    let st3 := writeTravel2 st2 (w_brush_x w, y3 (pos st2)) (w_speed w) in
    let st4 := wipe_moves (w_repeat w) 0 st3 (w_distance w) (w_speed w) in
    let st5 := writeTravel st4 prev (w_speed w) None in
    let st6 := match w_hop w with Some (_, sp) => writeZhopEnd st5 sp 0 None 0 | None => st5 end in
    let st7 := match w_retraction w with Some _ => writeUnretractionAndPrime st6 | None => st6 end in
    if Qltb 0 (w_pause w) then emit st7 (Dwell (w_pause w)) else st7.

  (** the calls that can be made *)
  Inductive op :=
  | OSetZ (z : Z)
  | OTravel (p : pt3) (sp : Q) (d : option Q)
  | OExtrude (p : pt3) (sp mm3_per_mm : Q) (update_offset : bool)
  | ORetract (cfg : retraction_config) (force extruder_switch : bool) (d : option Q)
  | OUnretract
  | OZhopStart (h : Z) (sp : Q) (d : option Q) (ratio : Q)
  | OZhopEnd (sp : Q)
  | OLeftover (amount ratio : Q)
  | OSwitch (n : nat) (cfg : retraction_config) (perform_z_hop : Z)
  | OResetE
  | OAddPrime (volume : Q)
  | OFlow (m f : Q)
  | OWipe (w : wipe_config).

  Definition apply_op (st : gst) (o : op) : gst :=
    match o with
    | OSetZ z => set_layer_z st z                                    (* gcodeExport.cpp:409-412 *)
    | OTravel p sp d => writeTravel st p sp d
    | OExtrude p sp v u => writeExtrusion st p sp v u
    | ORetract cfg force sw d => (writeRetraction st cfg force sw d).2
    | OUnretract => writeUnretractionAndPrime st
    | OZhopStart h sp d r => writeZhopStart st h sp d r
    | OZhopEnd sp => writeZhopEnd st sp 0 None 0
    | OLeftover a r => set_leftover st (Some (a, r))                 (* gcodeExport.cpp:483-486 *)
    | OSwitch n cfg h => switchExtruder st n cfg h
    | OResetE => resetExtrusionValue st
    | OAddPrime v => upd_attr st (fun a => a_prime (prime a + v)%Q a) (* gcodeExport.cpp:414-417 *)
    | OFlow m f => set_flow st m f                                   (* gcodeExport.cpp:419-423 *)
    | OWipe w => insertWipeScript st w
    end.
  Definition apply_ops (st : gst) (l : list op) : gst := fold_left apply_op l st.
End exporter.
