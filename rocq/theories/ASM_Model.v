(* Model of ActiveSubmaps2D and ActiveSubmaps3D: cartographer/mapping/2d/submap_2d.cc
   (s2 below), mapping/3d/submap_3d.cc (s3), mapping/submaps.h (sm).
   The content of a submap (its grids and, in 3D, the histogram) is a parameter: creating
   it for the first range data, inserting range data and finishing it.  The 3D class
   differs only in what the content is and in dropping the intensity grid of an erased
   submap (s3:343), which is not modelled.  None: a CHECK fails, or int overflows. *)
From Coq Require Import List ZArith Bool.
Import ListNotations.
Open Scope Z_scope.

Section ActiveSubmaps.
Variables D C : Type.
Variable create : D -> C.                  (* CreateGrid, s2:192-222; Submap3D::Submap3D, s3:197-207 *)
Variable insert : C -> D -> option C.      (* RangeDataInserterInterface::Insert *)
Variable finish : C -> option C.           (* ComputeCroppedGrid, s2:151; in 3D the identity *)

(* Submap, sm:59-92 *)
Record submap := mk_submap {
  s_content : C;
  s_num : Z;       (* num_range_data_ *)
  s_fin : bool     (* insertion_finished_ *)
}.

(* Submap2D::InsertRangeData, s2:137-144; Submap3D::InsertData, s3:271-294 *)
Definition submap_insert (s : submap) (d : D) : option submap :=
  if s_fin s then None
  else match insert (s_content s) d with
       | None => None
       | Some c => if s_num s + 1 <? 2 ^ 31 then Some (mk_submap c (s_num s + 1) false) else None
       end.

(* Submap2D::Finish, s2:146-151; Submap3D::Finish, s3:296-299 *)
Definition submap_finish (s : submap) : option submap :=
  if s_fin s then None
  else match finish (s_content s) with
       | None => None
       | Some c => Some (mk_submap c (s_num s) true)
       end.

(* ActiveSubmaps2D::AddSubmap, s2:224-237; ActiveSubmaps3D::AddSubmap, s3:332-351 *)
Definition add_submap (ss : list submap) (d : D) : option (list submap) :=
  let new := mk_submap (create d) 0 false in
  if 2 <=? Z.of_nat (length ss)
  then match ss with
       | front :: r => if s_fin front then Some (r ++ [new]) else None
       | [] => None
       end
  else Some (ss ++ [new]).

(* the loop over submaps, s2:167-169, s3:320-325 *)
Fixpoint insert_all (ss : list submap) (d : D) : option (list submap) :=
  match ss with
  | [] => Some []
  | s :: r => match submap_insert s d, insert_all r d with
              | Some s', Some r' => Some (s' :: r')
              | _, _ => None
              end
  end.

(* ActiveSubmaps2D::InsertRangeData, s2:161-174; ActiveSubmaps3D::InsertData, s3:310-330.
   The new state is also what is returned: submaps(). *)
Definition insert_range_data (N : Z) (ss : list submap) (d : D) : option (list submap) :=
  let need := match rev ss with [] => true | back :: _ => s_num back =? N end in
  match (if need then add_submap ss d else Some ss) with
  | None => None
  | Some ss1 =>
      match insert_all ss1 d with
      | Some (front :: r) =>
          if 2 * N <? 2 ^ 31 then
            if s_num front =? 2 * N
            then match submap_finish front with
                 | Some front' => Some (front' :: r)
                 | None => None
                 end
            else Some (front :: r)
          else None
      | _ => None
      end
  end.

(* any number of insertions into new active submaps *)
Fixpoint run (N : Z) (ss : list submap) (ds : list D) : option (list submap) :=
  match ds with
  | [] => Some ss
  | d :: r => match insert_range_data N ss d with Some ss' => run N ss' r | None => None end
  end.
End ActiveSubmaps.
Arguments mk_submap {C}. Arguments s_content {C}. Arguments s_num {C}. Arguments s_fin {C}.
