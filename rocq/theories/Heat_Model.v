(** C29: temperatures, fans, accelerations and jerk in the G-code exporter. *)
From Coq Require Import ZArith QArith Qabs Ascii.
From stdpp Require Import list.
From Verif Require Import Common TextNum_Model TextNum_Props.
Local Open Scope Q_scope.

(** EGCodeFlavor, as far as the functions below tell flavors apart; all others are [OtherFlavor]. *)
Inductive flavor := Marlin | Makerbot | Ultigcode | Griffin | Cheetah | Repetier | RepRap | OtherFlavor.

(** The lines written.  A number is the one that the printer reads: [printed p v] is the number read from the text
    that PrecisionedDouble{p, v} writes (TextNum_Props.v). *)
Inductive hcmd :=
| SetTemp (tool : option nat) (t : Q)          (* M104 [Tn] S *)
| WaitTemp (tool : option nat) (t : Q)         (* M109 [Tn] S *)
| WaitAll                                      (* M116 *)
| Tool (n : nat)                               (* Tn *)
| SetBed (t : Q) | WaitBed (t : Q)             (* M140 S, M190 S *)
| SetVolume (t : Q) | WaitVolume (t : Q)       (* M141 S, M191 S *)
| Report                                       (* M105 *)
| FanOff (fan : nat) | FanOn (v : Q) (fan : nat)   (* M107, M106 S, with P if the fan number is not 0 *)
| FanSwitch (on : bool)                        (* M126 T0, M127 T0 *)
| AccBoth (a : Q) | AccPrint (a : Q) | AccTravel (a : Q)  (* M204 S; M204 P or M201; M204 T or M202 *)
| JerkXY (j : Q).                              (* M205, M207, M566, M215 *)

(** The members of GCodeExport involved (gcodeExport.h:80-200). *)
Record hst := H {
  cur : nat; temp : nat -> Q; waited : nat -> bool; bed : Q;
  fans : nat -> option Q; acc_print : Q; acc_travel : Q; jerk : Q; out : list hcmd }.
Definition emit st c := H (cur st) (temp st) (waited st) (bed st) (fans st) (acc_print st) (acc_travel st) (jerk st) (out st ++ [c]).
Definition emits st l := fold_left emit l st.
Definition set_cur st n := H n (temp st) (waited st) (bed st) (fans st) (acc_print st) (acc_travel st) (jerk st) (out st).
Definition set_temp st f := H (cur st) f (waited st) (bed st) (fans st) (acc_print st) (acc_travel st) (jerk st) (out st).
Definition set_waited st f := H (cur st) (temp st) f (bed st) (fans st) (acc_print st) (acc_travel st) (jerk st) (out st).
Definition set_bed st b := H (cur st) (temp st) (waited st) b (fans st) (acc_print st) (acc_travel st) (jerk st) (out st).
Definition set_fans st f := H (cur st) (temp st) (waited st) (bed st) f (acc_print st) (acc_travel st) (jerk st) (out st).
Definition set_acc_print st a := H (cur st) (temp st) (waited st) (bed st) (fans st) a (acc_travel st) (jerk st) (out st).
Definition set_acc_travel st a := H (cur st) (temp st) (waited st) (bed st) (fans st) (acc_print st) a (jerk st) (out st).
Definition set_jerk st j := H (cur st) (temp st) (waited st) (bed st) (fans st) (acc_print st) (acc_travel st) j (out st).
Definition upd {A} (f : nat -> A) (n : nat) (x : A) : nat -> A := fun k => if Nat.eqb k n then x else f k.

(** equal texts *)
Definition same_text (p : nat) (a b : Q) : bool :=
  match writeDoubleToStream p a, writeDoubleToStream p b with
  | Ok s, Ok t => if List.list_eq_dec ascii_dec s t then true else false
  | _, _ => false
  end.
Definition Qltb (a b : Q) : bool := if Qlt_le_dec a b then true else false.

Section heat.
  (** the flavor; machine_scale_fan_speed_zero_to_one; machine_extruders_share_heater; machine_nozzle_temp_enabled;
      always_write_active_tool_; the number of extruders *)
  Variables (fl : flavor) (zero_to_one shared : bool) (enabled : nat -> bool) (write_active : bool) (count : nat).

  (** gcodeExport.cpp:1705-1708 *)
  Definition fan_precision : nat := if zero_to_one then 2%nat else 1%nat.
  Definition fan_value (v : Q) : Q := (if zero_to_one then v else v * 255) / 100.
  (** gcodeExport.cpp:1671-1741 *)
  Definition writeSpecificFanCommand (st : hst) (speed : Q) (fan : nat) : hst :=
    let st1 :=
      match fl with
      | Makerbot =>
          let new_on := negb (Qltb speed 50) in
          let write := match fans st fan with Some old => negb (Bool.eqb new_on (negb (Qltb old 50))) | None => true end in
          if write then emit st (FanSwitch new_on) else st
      | _ =>
          let write := match fans st fan with Some old => negb (same_text fan_precision (fan_value speed) (fan_value old)) | None => true end in
          if write then
            if wouldWriteZero fan_precision (fan_value speed) then emit st (FanOff fan)
            else emit st (FanOn (printed fan_precision (fan_value speed)) fan)
          else st
      end in
    set_fans st1 (upd (fans st1) fan (Some speed)).

  (** gcodeExport.cpp:1743-1817; [t] is never NaN *)
  Definition writeTemperatureCommand (st : hst) (extruder : nat) (t : Q) (wait force : bool) : hst :=
    if negb (enabled extruder) then st
    else if shared && negb (Nat.eqb extruder (cur st)) then st
    else
      let st1 :=
        if shared then
          let others k := negb (Nat.eqb k extruder) && Nat.ltb k count in
          set_temp (set_waited st (fun k => if others k && (wait || Qltb (temp st k) t) then wait else waited st k))
                   (fun k => if others k then t else temp st k)
        else st in
      if (negb wait || waited st1 extruder) && negb force && Qeq_bool (temp st1 extruder) t then st1
      else
        let tool := if Nat.eqb extruder (cur st1) then None else Some extruder in
        let makerbot := match fl with Makerbot => true | _ => false end in
        let st2 :=
          if wait && negb makerbot then
            set_waited (emit (match fl with Marlin => emit st1 Report | _ => st1 end) (WaitTemp tool (printed 1 t))) (upd (waited st1) extruder true)
          else set_waited (emit st1 (SetTemp tool (printed 1 t))) (upd (waited st1) extruder false) in
        let st3 := if negb (Nat.eqb extruder (cur st2)) && write_active then emit st2 (Tool (cur st2)) else st2 in
        let st4 := if wait && makerbot then emit st3 WaitAll else st3 in
        set_temp st4 (upd (temp st4) extruder t).

  (** gcodeExport.cpp:1819-1847 *)
  Definition writeBedTemperatureCommand (st : hst) (t : Q) (wait : bool) : hst :=
    match fl with
    | Ultigcode => st
    | _ =>
        if Qeq_bool (bed st) t then st
        else
          let st1 := if wait
                     then emit (match fl with Marlin => emits st [SetBed (printed 1 t); Report] | _ => st end) (WaitBed (printed 1 t))
                     else emit st (SetBed (printed 1 t)) in
          set_bed st1 t
    end.
  (** gcodeExport.cpp:1849-1864 *)
  Definition writeBuildVolumeTemperatureCommand (st : hst) (t : Q) (wait : bool) : hst :=
    match fl with
    | Ultigcode | Griffin | Cheetah => st
    | _ => emit st (if wait then WaitVolume (printed 1 t) else SetVolume (printed 1 t))
    end.
  (** gcodeExport.cpp:1866-1893; both numbers of an M201 are the same *)
  Definition writePrintAcceleration (st : hst) (a : Q) : hst :=
    let st1 := if Qeq_bool (acc_print st) a then st
               else emit st (match fl with Repetier | RepRap => AccPrint (printed 0 a) | _ => AccBoth (printed 0 a) end) in
    set_acc_print st1 a.
  (** gcodeExport.cpp:1895-1918 *)
  Definition writeTravelAcceleration (st : hst) (a : Q) : hst :=
    let st1 := match fl with
               | Repetier | RepRap => if Qeq_bool (acc_travel st) a then st else emit st (AccTravel (printed 0 a))
               | _ => writePrintAcceleration st a
               end in
    set_acc_travel st1 a.
  (** gcodeExport.cpp:1920-1950: the factor of the number written *)
  Definition jerk_scale : Q := match fl with RepRap => 60 | Cheetah => 1000 | _ => 1 end.
  Definition writeJerk (st : hst) (j : Q) : hst :=
    if Qeq_bool (jerk st) j then st else set_jerk (emit st (JerkXY (printed 2 (j * jerk_scale)))) j.

  (** The calls.  A tool change writes the tool (gcodeExport.cpp:1490-1500) and changes current_extruder_. *)
  Inductive hop :=
  | HTool (n : nat) | HTemp (n : nat) (t : Q) (wait force : bool) | HBed (t : Q) (wait : bool) | HVolume (t : Q) (wait : bool)
  | HFan (speed : Q) (fan : nat) | HPrintAcc (a : Q) | HTravelAcc (a : Q) | HJerk (j : Q).
  Definition apply_hop (st : hst) (o : hop) : hst :=
    match o with
    | HTool n => if Nat.eqb n (cur st) then st else set_cur (emit st (Tool n)) n
    | HTemp n t wait force => writeTemperatureCommand st n t wait force
    | HBed t wait => writeBedTemperatureCommand st t wait
    | HVolume t wait => writeBuildVolumeTemperatureCommand st t wait
    | HFan speed fan => writeSpecificFanCommand st speed fan
    | HPrintAcc a => writePrintAcceleration st a
    | HTravelAcc a => writeTravelAcceleration st a
    | HJerk j => writeJerk st j
    end.
  Definition apply_hops (st : hst) (l : list hop) : hst := fold_left apply_hop l st.
End heat.
