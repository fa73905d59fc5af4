(** Model of rapiddlt/src/dlt_v1.rs. *)
From Verif Require Import Base.
Local Open Scope N_scope.

(** * Header type, dlt_v1.rs:11-84 *)

(** dlt_v1.rs:19-46 [DltHTyp::new]. [version << 5] on [u8] drops the high bits
    (the shift amount is in range, so it cannot panic). *)
Definition htyp_new (is_extended_header is_msb_first is_with_ecu_id
                     is_with_session_id is_with_timestamp : bool)
                    (version : byte) : byte :=
  let htyp := 0 in
  let htyp := if is_extended_header then N.lor htyp 1 else htyp in
  let htyp := if is_msb_first then N.lor htyp 2 else htyp in
  let htyp := if is_with_ecu_id then N.lor htyp 4 else htyp in
  let htyp := if is_with_session_id then N.lor htyp 8 else htyp in
  let htyp := if is_with_timestamp then N.lor htyp 16 else htyp in
  u8 (N.lor htyp ((N.shiftl (bN version) 5) mod 256)).

(** dlt_v1.rs:49-71, masks dlt_v1.rs:77-84. *)
Definition is_extended_header (h : byte) : bool := 0 <? N.land (bN h) 1.   (* :49-51 *)
Definition is_msb_first (h : byte) : bool := 0 <? N.land (bN h) 2.         (* :53-55 *)
Definition is_with_ecu_id (h : byte) : bool := 0 <? N.land (bN h) 4.       (* :57-59 *)
Definition is_with_session_id (h : byte) : bool := 0 <? N.land (bN h) 8.   (* :61-63 *)
Definition is_with_timestamp (h : byte) : bool := 0 <? N.land (bN h) 16.   (* :65-67 *)
Definition htyp_version (h : byte) : byte :=                               (* :69-71 *)
  u8 (N.shiftr (N.land (bN h) 224) 5).

(** * Headers *)

(** dlt_v1.rs:86-92 [DltStandardHeader]; the big-endian [U16] is held as its value. *)
Record std_header := { header_type : byte; message_counter : byte; std_length : N }.

(** dlt_v1.rs:95-99 [DltStandardHeader::new]. *)
Definition std_header_new (ht mc : byte) (len : N) : std_header :=
  {| header_type := ht; message_counter := mc; std_length := len |}.

(** dlt_v1.rs:100-102 [size_of::<DltStandardHeader>()] (repr(C): 1+1+2). *)
Definition std_header_size : nat := 4%nat.

(** dlt_v1.rs:104-106 [DltStandardHeader::length]. *)
Definition std_header_length (h : std_header) : nat := N.to_nat (std_length h).

(** zerocopy [DltStandardHeader::ref_from_prefix]: [None] if too short; alignment is 1. *)
Definition std_header_from_prefix (b : bytes) : option std_header :=
  match b with
  | a :: c :: l1 :: l0 :: _ => Some (std_header_new a c (be16 l1 l0))
  | _ => None
  end.

(** zerocopy [AsBytes::as_bytes] of [DltStandardHeader]. *)
Definition std_header_as_bytes (h : std_header) : bytes :=
  header_type h :: message_counter h :: be16_bytes (std_length h).

(** dlt_v1.rs:109-116 [DltStorageHeader]; little-endian integers held as values. *)
Record storage_header := { pattern : quad; secs : N; msecs : Z; ecu : quad }.

(** dlt_v1.rs:119-131 [DltStorageHeader::new]. *)
Definition storage_header_new (p : quad) (s : N) (ms : Z) (e : quad) : storage_header :=
  {| pattern := p; secs := s; msecs := ms; ecu := e |}.

(** dlt_v1.rs:133-135 [size_of::<DltStorageHeader>()] (repr(C): 4+4+4+4). *)
Definition storage_header_size : nat := 16%nat.

(** zerocopy [DltStorageHeader::ref_from_prefix]. *)
Definition storage_header_from_prefix (b : bytes) : option storage_header :=
  match b with
  | p0 :: p1 :: p2 :: p3 :: s0 :: s1 :: s2 :: s3 :: m0 :: m1 :: m2 :: m3 ::
    e0 :: e1 :: e2 :: e3 :: _ =>
      Some (storage_header_new (Quad p0 p1 p2 p3) (le32 s0 s1 s2 s3)
              (i32_of_u32 (le32 m0 m1 m2 m3)) (Quad e0 e1 e2 e3))
  | _ => None
  end.

(** zerocopy [AsBytes::as_bytes] of [DltStorageHeader]. *)
Definition storage_header_as_bytes (h : storage_header) : bytes :=
  quad_bytes (pattern h) ++ le32_bytes (secs h) ++
  le32_bytes (u32_of_i32 (msecs h)) ++ quad_bytes (ecu h).

(** * Message types, dlt_v1.rs:147-261 *)

(** dlt_v1.rs:161-168 *)
Inductive log_info := LogFatal | LogError | LogWarn | LogInfo | LogDebug | LogVerbose.
(** dlt_v1.rs:173-179 *)
Inductive trace_info := TraceVariable | TraceFunctionIn | TraceFunctionOut | TraceState | TraceVfb.
(** dlt_v1.rs:185-192 *)
Inductive nw_info := NwIpc | NwCan | NwFlexray | NwMost | NwEthernet | NwSomeip.
(** dlt_v1.rs:198-201 *)
Inductive ctl_info := CtlRequest | CtlResponse.
(** dlt_v1.rs:150-155 *)
Inductive msg_type :=
| TypeLog (i : log_info)
| TypeAppTrace (i : trace_info)
| TypeNwTrace (i : nw_info)
| TypeControl (i : ctl_info).

(** [mtin as u8]: the explicit discriminants, dlt_v1.rs:161-201. *)
Definition log_code (i : log_info) : N :=
  match i with LogFatal => 1 | LogError => 2 | LogWarn => 3 | LogInfo => 4 | LogDebug => 5 | LogVerbose => 6 end.
(** dlt_v1.rs:173-179, discriminants. *)
Definition trace_code (i : trace_info) : N :=
  match i with TraceVariable => 1 | TraceFunctionIn => 2 | TraceFunctionOut => 3 | TraceState => 4 | TraceVfb => 5 end.
(** dlt_v1.rs:185-192, discriminants. *)
Definition nw_code (i : nw_info) : N :=
  match i with NwIpc => 1 | NwCan => 2 | NwFlexray => 3 | NwMost => 4 | NwEthernet => 5 | NwSomeip => 6 end.
(** dlt_v1.rs:198-201, discriminants. *)
Definition ctl_code (i : ctl_info) : N :=
  match i with CtlRequest => 1 | CtlResponse => 2 end.

(** num_derive [FromPrimitive::from_u8] of the four enums: by discriminant. *)
Definition log_from_u8 (n : N) : option log_info :=
  match n with 1 => Some LogFatal | 2 => Some LogError | 3 => Some LogWarn
             | 4 => Some LogInfo | 5 => Some LogDebug | 6 => Some LogVerbose | _ => None end.
(** dlt_v1.rs:170-179, [FromPrimitive]. *)
Definition trace_from_u8 (n : N) : option trace_info :=
  match n with 1 => Some TraceVariable | 2 => Some TraceFunctionIn | 3 => Some TraceFunctionOut
             | 4 => Some TraceState | 5 => Some TraceVfb | _ => None end.
(** dlt_v1.rs:181-192, [FromPrimitive]. *)
Definition nw_from_u8 (n : N) : option nw_info :=
  match n with 1 => Some NwIpc | 2 => Some NwCan | 3 => Some NwFlexray
             | 4 => Some NwMost | 5 => Some NwEthernet | 6 => Some NwSomeip | _ => None end.
(** dlt_v1.rs:194-201, [FromPrimitive]. *)
Definition ctl_from_u8 (n : N) : option ctl_info :=
  match n with 1 => Some CtlRequest | 2 => Some CtlResponse | _ => None end.

(** dlt_v1.rs:204-208 [DltMessageInfoMask], cast [as u8] at the use sites
    (0x15 << 4 = 0x150 is truncated to 0x50). *)
Definition mask_verbose : N := bN (u8 1).
(** dlt_v1.rs:206. *)
Definition mask_message_type : N := bN (u8 (N.shiftl 7 1)).
(** dlt_v1.rs:207. *)
Definition mask_message_type_info : N := bN (u8 (N.shiftl 21 4)).

(** dlt_v1.rs:218-220 [MessageType::is_verbose]. *)
Definition is_verbose (msin : byte) : bool := 0 <? N.land (bN msin) mask_verbose.

(** dlt_v1.rs:221-230 [MessageType::message_type]. *)
Definition message_type (msin : byte) : option msg_type :=
  let mtin := N.shiftr (N.land (bN msin) mask_message_type_info) 4 in
  match N.shiftr (N.land (bN msin) mask_message_type) 1 with
  | 0 => option_map TypeLog (log_from_u8 mtin)
  | 1 => option_map TypeAppTrace (trace_from_u8 mtin)
  | 2 => option_map TypeNwTrace (nw_from_u8 mtin)
  | 3 => option_map TypeControl (ctl_from_u8 mtin)
  | _ => None
  end.

(** dlt_v1.rs:231-233 [MessageType::info]. *)
Definition msin_info (msin : byte) : bool * option msg_type :=
  (is_verbose msin, message_type msin).

(** dlt_v1.rs:242,246,250,254: [DltMessageType::DltTypeLog as u8] casts the tuple-variant
    constructor, a function item, to its address truncated to [u8].  The addresses are
    chosen by compiler and linker: an oracle giving the low byte of each address. *)
Record ctor_addrs := { addr_log : byte; addr_app : byte; addr_nw : byte; addr_ctl : byte }.

(** dlt_v1.rs:235-260 [MessageType::create_message_type]. [x << 4] and [x << 1] on [u8]. *)
Definition create_message_type (A : ctor_addrs) (verbose : bool) (typ : msg_type) : byte :=
  let msin := if verbose then 1 else 0 in
  let enc (addr : byte) (code : N) :=
    let m := N.lor msin (N.land ((N.shiftl (bN addr) 1) mod 256) mask_message_type) in
    u8 (N.lor m (N.land ((N.shiftl code 4) mod 256) mask_message_type_info)) in
  match typ with
  | TypeLog i => enc (addr_log A) (log_code i)
  | TypeAppTrace i => enc (addr_app A) (trace_code i)
  | TypeNwTrace i => enc (addr_nw A) (nw_code i)
  | TypeControl i => enc (addr_ctl A) (ctl_code i)
  end.

(** dlt_v1.rs:264-271 [DltExtendedHeader]. *)
Record ext_header := { msin : byte; noar : byte; apid : quad; ctid : quad }.

(** dlt_v1.rs:274-276 [DltExtendedHeader::new]. *)
Definition ext_header_new (m n : byte) (a c : quad) : ext_header :=
  {| msin := m; noar := n; apid := a; ctid := c |}.

(** dlt_v1.rs:278-280 [size_of::<DltExtendedHeader>()] (repr(C): 1+1+4+4). *)
Definition ext_header_size : nat := 10%nat.

(** zerocopy [DltExtendedHeader::ref_from_prefix]. *)
Definition ext_header_from_prefix (b : bytes) : option ext_header :=
  match b with
  | m :: n :: a0 :: a1 :: a2 :: a3 :: c0 :: c1 :: c2 :: c3 :: _ =>
      Some (ext_header_new m n (Quad a0 a1 a2 a3) (Quad c0 c1 c2 c3))
  | _ => None
  end.

(** zerocopy [AsBytes::as_bytes] of [DltExtendedHeader]. *)
Definition ext_header_as_bytes (h : ext_header) : bytes :=
  msin h :: noar h :: quad_bytes (apid h) ++ quad_bytes (ctid h).

(** zerocopy [big_endian::U32::ref_from_prefix(b)?.get()]. *)
Definition u32_from_prefix (b : bytes) : option N :=
  match b with a :: b :: c :: d :: _ => Some (be32 a b c d) | _ => None end.

(** * Entries *)

(** dlt_v1.rs:339-342 [DltEntry]. *)
Record dlt_entry := { header : std_header; tail : bytes }.
(** dlt_v1.rs:290-293 [DltStorageEntry]. *)
Record storage_entry := { sheader : storage_header; dlt : dlt_entry }.

Local Close Scope N_scope.

(** dlt_v1.rs:417-426 [<DltEntry as FromBytesReadableTrait>::try_read]. *)
Definition entry_try_read (b : bytes) : outcome (option (nat * dlt_entry)) :=
  match std_header_from_prefix b with
  | None => Ret None
  | Some h =>
      let size2 := std_header_length h in
      if (size2 <? std_header_size) || (length b <? size2) then Ret None
      else let* p := slice b std_header_size size2 in
           Ret (Some (size2, {| header := h; tail := p |}))
  end.

(** dlt_v1.rs:429-431 [<DltEntry as FromBytesReadableTrait>::len]. *)
Definition entry_len (e : dlt_entry) : nat := std_header_length (header e).

(** dlt_v1.rs:296-301 the free function [try_read], also
    dlt_v1.rs:310-312 [DltStorageEntry::try_read_valid_marker]. *)
Definition storage_try_read_valid (b : bytes) : outcome (option (nat * storage_entry)) :=
  match storage_header_from_prefix b with
  | None => Ret None
  | Some sh =>
      let* rest := slice_from b storage_header_size in
      let* r := entry_try_read rest in
      match r with
      | None => Ret None
      | Some (size2, e) =>
          Ret (Some (storage_header_size + size2, {| sheader := sh; dlt := e |}))
      end
  end.

(** dlt_v1.rs:305-307 [DltStorageEntry::marker]: "DLT" 0x01. *)
Definition dlt_marker : bytes := [x44; x4c; x54; x01].

(** dlt_v1.rs:318-326 [<DltStorageEntry as FromBytesReadableTrait>::try_read]. *)
Definition storage_try_read (b : bytes) : outcome (option (nat * storage_entry)) :=
  if length b <? 4 then Ret None
  else let* p := slice b 0 4 in
       if negb (bytes_eqb p dlt_marker) then Ret None
       else storage_try_read_valid b.

(** dlt_v1.rs:329-331 [<DltStorageEntry as FromBytesReadableTrait>::len]. *)
Definition storage_len (e : storage_entry) : nat :=
  std_header_length (header (dlt e)) + storage_header_size.

(** dlt_v1.rs:333-335 and :433-435 [max_len]: u16::MAX. *)
Definition dlt_max_len : nat := N.to_nat 65535.

(** dlt_v1.rs:346-352 [DltEntry::ecu_id]. *)
Definition ecu_id (e : dlt_entry) : outcome (option N) :=
  if is_with_ecu_id (header_type (header e)) then
    let* s := slice_to (tail e) 4 in Ret (u32_from_prefix s)
  else Ret None.

(** dlt_v1.rs:355-371 [DltEntry::timestamp]. *)
Definition timestamp (e : dlt_entry) : outcome (option N) :=
  let h := header_type (header e) in
  let offset := 0 in
  if is_with_timestamp h then
    let offset := if is_with_ecu_id h then offset + 4 else offset in
    let offset := if is_with_session_id h then offset + 4 else offset in
    if length (tail e) <? offset then Ret None
    else let* s := slice_from (tail e) offset in Ret (u32_from_prefix s)
  else Ret None.

(** dlt_v1.rs:377-387 and :393-402, the common offset computation. *)
Definition ext_offset (h : byte) : nat :=
  let offset := 0 in
  let offset := if is_with_ecu_id h then offset + 4 else offset in
  let offset := if is_with_session_id h then offset + 4 else offset in
  if is_with_timestamp h then offset + 4 else offset.

(** dlt_v1.rs:373-389 [DltEntry::extended_header]. *)
Definition extended_header (e : dlt_entry) : outcome (option ext_header) :=
  let h := header_type (header e) in
  if negb (is_extended_header h) then Ret None
  else let* s := slice_from (tail e) (ext_offset h) in Ret (ext_header_from_prefix s).

(** dlt_v1.rs:392-411 [DltEntry::payload]. *)
Definition payload (e : dlt_entry) : outcome (option bytes) :=
  let h := header_type (header e) in
  let offset := ext_offset h in
  let finish (offset : nat) :=
    if length (tail e) <? offset then Ret None
    else let* s := slice_from (tail e) offset in Ret (Some s) in
  if is_extended_header h then
    let* s := slice_from (tail e) offset in
    match ext_header_from_prefix s with
    | None => Ret None
    | Some _ => finish (offset + ext_header_size)
    end
  else finish offset.
