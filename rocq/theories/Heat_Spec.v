(** What temperature, fan, acceleration and jerk lines do on a printer, and what the calls ask for. *)
From Coq Require Import ZArith QArith Qabs Qminmax.
From stdpp Require Import list.
From Verif Require Import Common Heat_Model.
Local Open Scope Q_scope.

Record machine := M {
  tool : nat;            (* the active tool *)
  target : nat -> Q;     (* the target temperature of each heater *)
  low : nat -> Q;        (* a temperature that each nozzle is known to have reached, and to have kept since *)
  mbed : Q; bed_low : Q; (* the same for the bed *)
  mfan : nat -> Q;       (* the number last given for each fan *)
  mswitch : bool;        (* the fan of a printer that can only switch it *)
  m_print : Q; m_travel : Q; m_jerk : Q }.
Definition m_tool m n := M n (target m) (low m) (mbed m) (bed_low m) (mfan m) (mswitch m) (m_print m) (m_travel m) (m_jerk m).
Definition m_heat m f g := M (tool m) f g (mbed m) (bed_low m) (mfan m) (mswitch m) (m_print m) (m_travel m) (m_jerk m).
Definition m_bed m b l := M (tool m) (target m) (low m) b l (mfan m) (mswitch m) (m_print m) (m_travel m) (m_jerk m).
Definition m_fan m f := M (tool m) (target m) (low m) (mbed m) (bed_low m) f (mswitch m) (m_print m) (m_travel m) (m_jerk m).
Definition m_switch m b := M (tool m) (target m) (low m) (mbed m) (bed_low m) (mfan m) b (m_print m) (m_travel m) (m_jerk m).
Definition m_acc m a b := M (tool m) (target m) (low m) (mbed m) (bed_low m) (mfan m) (mswitch m) a b (m_jerk m).
Definition m_setjerk m j := M (tool m) (target m) (low m) (mbed m) (bed_low m) (mfan m) (mswitch m) (m_print m) (m_travel m) j.

Section printer.
  (** [shared]: all tools are heated by one heater; [switches]: this firmware changes tools when it sees a T, also
      one in an M104 line *)
  Variables (shared switches : bool).
  Definition heater (n : nat) : nat := if shared then 0%nat else n.
  Definition hstep (m : machine) (c : hcmd) : machine :=
    match c with
    | SetTemp o t =>
        let n := default (tool m) o in
        m_heat (if switches then m_tool m n else m) (upd (target m) (heater n) t) (upd (low m) (heater n) (Qmin (low m (heater n)) t))
    | WaitTemp o t =>
        let n := default (tool m) o in
        m_heat (if switches then m_tool m n else m) (upd (target m) (heater n) t) (upd (low m) (heater n) t)
    | WaitAll => m_heat m (target m) (target m)
    | Tool n => m_tool m n
    | SetBed t => m_bed m t (Qmin (bed_low m) t)
    | WaitBed t => m_bed m t t
    | FanOff f => m_fan m (upd (mfan m) f 0)
    | FanOn v f => m_fan m (upd (mfan m) f v)
    | FanSwitch b => m_switch m b
    | AccBoth a => m_acc m a a
    | AccPrint a => m_acc m a (m_travel m)
    | AccTravel a => m_acc m (m_print m) a
    | JerkXY j => m_setjerk m j
    | SetVolume _ | WaitVolume _ | Report => m
    end.
  Definition hrun (m : machine) (l : list hcmd) : machine := fold_left hstep l m.
End printer.

(** ** What was asked for last *)
Section asked.
  Variables (fl : flavor) (shared : bool) (enabled : nat -> bool).
  (** a request for the temperature of extruder [n] counts if its nozzle is heated at all and, with a shared
      heater, if it is the extruder in use *)
  Fixpoint tool_of (c : nat) (l : list hop) : nat :=
    match l with [] => c | HTool n :: l => tool_of n l | _ :: l => tool_of c l end.
  Definition counts (c n : nat) : bool := enabled n && (negb shared || Nat.eqb n c).
  (** the last temperature asked of heater [h]; [c] is the extruder in use at the start *)
  Fixpoint asked_temp (c : nat) (q : Q) (h : nat) (l : list hop) : Q :=
    match l with
    | [] => q
    | HTool n :: l => asked_temp n q h l
    | HTemp n t _ _ :: l => asked_temp c (if counts c n && Nat.eqb (heater shared n) h then t else q) h l
    | _ :: l => asked_temp c q h l
    end.
  Fixpoint asked_bed (q : Q) (l : list hop) : Q :=
    match l with [] => q | HBed t _ :: l => asked_bed t l | _ :: l => asked_bed q l end.
  Fixpoint asked_fan (q : option Q) (f : nat) (l : list hop) : option Q :=
    match l with [] => q | HFan s f' :: l => asked_fan (if Nat.eqb f' f then Some s else q) f l | _ :: l => asked_fan q f l end.
  (** Repetier and RepRap have an acceleration of their own for travel moves. *)
  Definition two_accelerations : bool := match fl with Repetier | RepRap => true | _ => false end.
  Fixpoint asked_print (q : option Q) (l : list hop) : option Q :=
    match l with
    | [] => q
    | HPrintAcc a :: l => asked_print (Some a) l
    | HTravelAcc a :: l => asked_print (if two_accelerations then q else Some a) l
    | _ :: l => asked_print q l
    end.
  Fixpoint asked_travel (q : option Q) (l : list hop) : option Q :=
    match l with
    | [] => q
    | HTravelAcc a :: l => asked_travel (Some a) l
    | HPrintAcc a :: l => asked_travel (if two_accelerations then q else Some a) l
    | _ :: l => asked_travel q l
    end.
  Fixpoint asked_jerk (q : option Q) (l : list hop) : option Q :=
    match l with [] => q | HJerk j :: l => asked_jerk (Some j) l | _ :: l => asked_jerk q l end.
End asked.

(** The units that firmwares read: a fan's duty out of 255 or out of 1 for a speed in percent; jerk in mm/s, for
    RepRap's M566 in mm/min, for Cheetah's M215 in um/s. *)
Definition fan_number (out_of_one : bool) (percent : Q) : Q := percent / 100 * (if out_of_one then 1 else 255).
Definition jerk_number (fl : flavor) (mm_per_s : Q) : Q :=
  match fl with RepRap => mm_per_s * 60 | Cheetah => mm_per_s * 1000 | _ => mm_per_s end.
