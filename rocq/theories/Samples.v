(** * Samples: concrete device descriptions used as witnesses (non-vacuity examples and counterexamples). *)
From Verif Require Import Base PyStr PyInt Types DimModel EnumModel ElemModel FinalModel ResolveModel ProcessModel SpecProcess.

Definition nodim := mk_sdim None None None None None.
Definition noprops := mk_oprops None None None None None.
Definition sized (n : Z) := mk_oprops (Some n) None None None None.
Definition s_ev (name value : string) := mk_sev name None (Some value) None.
Definition s_evc (name : option string) (evs : list svd_ev) (from : option string) := mk_sevc name None None evs from.
Definition s_field (name : string) (lsb msb : option Z) (acc : option access) (evcs : list svd_evc) (from : option string) :=
  mk_sfield nodim name None None None lsb msb None acc None None None evcs from.
Definition s_reg_dim (d : svd_dim) (p : oprops) (name : string) (off : Z) (fs : list svd_field) (alt : option string) (from : option string) :=
  SReg (mk_sreg d p name None None None alt off None None None None fs from).
Definition s_reg := s_reg_dim nodim noprops.
Definition s_clu (p : oprops) (name : string) (off : Z) (alt : option string) (l : list svd_rc) (from : option string) :=
  SClu (mk_sclu nodim p name None alt None off from) l.
Definition s_per_dim (d : svd_dim) (p : oprops) (name : string) (base : Z) (l : list svd_rc) (alt : option string) (from : option string) :=
  mk_sper d p name None None alt None None None None None base [mk_sab 0 256 AB_REGISTERS None] [] l from.
Definition s_per := s_per_dim nodim noprops.
Definition s_dev_props (p : oprops) (ps : list svd_periph) := mk_sdev p "" "" None None "dev" None "1" "" None None None None 8 32 ps.
Definition s_dev := s_dev_props noprops.

(** a device with a dim register, nested clusters, a derived register, a derived peripheral, enumerated values with a default,
    overlapping registers (one pair permitted, one not), an unaligned register, a reserved field and an empty cluster *)
Definition sample : svd_device :=
  s_dev [
    s_per "B" 8192 [] None (Some "A");
    s_per "A" 4096
      [ s_reg_dim (mk_sdim (Some 2) (Some 4) None None None) noprops "T[%s]" 32 [] None None;
        s_clu noprops "C" 64 None
          [ s_clu (mk_oprops None (Some READ_ONLY) None (Some 7) None) "D" 8 None
              [ s_reg "X" 4 [] None None; s_reg "Y" 0 [] None (Some "X") ] None;
            s_reg "Z" 0 [] None None ] None;
        s_clu noprops "Empty" 128 None [] None;
        s_reg "R1" 0 [ s_field "F" (Some 0) (Some 1) None
                         [s_evc None [s_ev "on" "1"; mk_sev "rest" None None (Some true)] None] None;
                       s_field "G" (Some 4) (Some 7) (Some READ_ONLY) [] None;
                       s_field "H" (Some 6) (Some 7) (Some WRITE_ONLY) [] None;
                       s_field "Reserved" (Some 0) (Some 31) None [] None ] None None;
        s_reg "R2" 0 [] (Some "R1") None;
        s_reg "R3" 2 [] None None ] None None ].

(** peripheral, register names and absolute addresses *)
Definition outline (d : device) : list (string * list (string * Z)) :=
  map (fun p => (pb_name (pr_b p), map (fun r => (rb_name (r_b r), r_base r)) (pr_regs p))) (dv_periphs d).
Definition sample_result := process_device 20 sample.
Definition the_device (m : M device) : device := match snd m with Ok d => d | Err _ => mk_dev (process_device_base sample) [] end.
Example sample_accepted : Processes sample (fst sample_result) (the_device sample_result).
Proof. exists 20%nat. unfold the_device. vm_compute. reflexivity. Qed.
Example sample_outline : outline (the_device sample_result) =
  [("A", [("R1", 4096); ("R2", 4096); ("R3", 4098); ("T0", 4128); ("T1", 4132); ("Z", 4160); ("Y", 4168); ("X", 4172)]);
   ("B", [("R1", 8192); ("R2", 8192); ("R3", 8194); ("T0", 8224); ("T1", 8228); ("Z", 8256); ("Y", 8264); ("X", 8268)])].
Proof. vm_compute. reflexivity. Qed.
Example sample_warnings : fst sample_result =
  [W_FieldReserved; W_RcUnaligned "R3"; W_ClusterEmpty "Empty"; W_RcOverlap "R3" "R1"; W_RcOverlap "R3" "R2";
   W_FieldReserved; W_RcUnaligned "R3"; W_ClusterEmpty "Empty"; W_RcOverlap "R3" "R1"; W_RcOverlap "R3" "R2"].
Proof. vm_compute. reflexivity. Qed.
