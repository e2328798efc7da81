(* Model of cartographer/io/proto_stream.{h,cc} (ps below).
   A file is its list of bytes (0..255).  gzip (common/port.h:46-66, boost) and
   protobuf serialization are parameters; a serialized message is a byte list.
   std::ifstream is modelled by the unread bytes and its fail and eof bits (ISO
   C++ [istream.unformatted]); I/O errors of the operating system are not
   modelled.  gunzip of broken data throws in C++; it is None here. *)
From Coq Require Import List ZArith Bool.
Import ListNotations.
Open Scope Z_scope.

Definition kMagic : Z := 0x7b1d1f7b5bf501db.     (* ps.cc:27 *)

(* WriteSizeAsLittleEndian, ps.cc:29-34 *)
Fixpoint write_le (k : nat) (size : Z) : list Z :=
  match k with
  | O => []
  | S k => Z.land size 255 :: write_le k (Z.shiftr size 8)
  end.
Definition write_size (size : Z) : list Z := write_le 8 size.

Record istream := { rest : list Z; failed : bool; at_eof : bool }.

(* in->get(): the next byte, or EOF = -1 with failbit (and eofbit if the stream
   was still good) *)
Definition get (s : istream) : istream * Z :=
  if failed s || at_eof s then ({| rest := rest s; failed := true; at_eof := at_eof s |}, -1)
  else match rest s with
       | [] => ({| rest := []; failed := true; at_eof := true |}, -1)
       | b :: r => ({| rest := r; failed := false; at_eof := false |}, b)
       end.

Definition u64 (x : Z) : Z := x mod 2 ^ 64.

(* ReadSizeAsLittleEndian, ps.cc:36-43 *)
Fixpoint read_le (k : nat) (s : istream) (size : Z) : istream * Z :=
  match k with
  | O => (s, size)
  | S k =>
      let (s', b) := get s in
      read_le k s' (u64 (Z.shiftr size 8 + u64 (Z.shiftl (u64 b) 56)))
  end.
Definition read_size (s : istream) : istream * option Z :=
  let (s', size) := read_le 8 s 0 in
  (s', if failed s' then None else Some size).

(* in_.read(buffer, n) *)
Definition read_bytes (s : istream) (n : Z) : istream * option (list Z) :=
  if failed s || at_eof s then ({| rest := rest s; failed := true; at_eof := at_eof s |}, None)
  else if Z.of_nat (length (rest s)) <? n
       then ({| rest := []; failed := true; at_eof := true |}, None)
       else ({| rest := skipn (Z.to_nat n) (rest s); failed := false; at_eof := false |},
             Some (firstn (Z.to_nat n) (rest s))).

Section PS.
Variable msg : Type.
Variable serialize : msg -> list Z.              (* SerializeToString *)
Variable parse : list Z -> option msg.           (* ParseFromString *)
Variable gzip : list Z -> list Z.                (* FastGzipString *)
Variable gunzip : list Z -> option (list Z).     (* FastGunzipString *)

(* Write and WriteProto, ps.cc:52-63 *)
Definition record_of (m : msg) : list Z :=
  let c := gzip (serialize m) in
  write_size (Z.of_nat (length c)) ++ c.

(* constructor and WriteProto calls, ps.cc:47-63; destructor or Close flush *)
Definition file_of (ms : list msg) : list Z :=
  write_size kMagic ++ flat_map record_of ms.

(* ProtoStreamReader::ProtoStreamReader, ps.cc:70-77; None = CHECK failure *)
Definition open_reader (file : list Z) : option istream :=
  let (s, r) := read_size {| rest := file; failed := false; at_eof := false |} in
  match r with
  | Some m => if m =? kMagic then (if failed s || at_eof s then None else Some s) else None
  | None => None
  end.

Inductive read_result := RFalse | RTrue (m : msg) | RThrow.

(* Read and ReadProto, ps.cc:79-95 *)
Definition read_proto (s : istream) : istream * read_result :=
  let (s1, r) := read_size s in
  match r with
  | None => (s1, RFalse)
  | Some n =>
      let (s2, d) := read_bytes s1 n in
      match d with
      | None => (s2, RFalse)
      | Some c =>
          match gunzip c with
          | None => (s2, RThrow)
          | Some u => match parse u with
                      | None => (s2, RFalse)
                      | Some m => (s2, RTrue m)
                      end
          end
      end
  end.

Fixpoint read_n (n : nat) (s : istream) : istream * list read_result :=
  match n with
  | O => (s, [])
  | S k => let (s1, r) := read_proto s in
           let (s2, rs) := read_n k s1 in (s2, r :: rs)
  end.
End PS.
Arguments RTrue {msg}. Arguments RFalse {msg}. Arguments RThrow {msg}.
