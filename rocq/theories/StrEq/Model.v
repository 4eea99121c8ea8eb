(** Model of the string comparison functions of base/data/m_str.c.

    A [char *] argument is an optional list of bytes ([None] is NULL), the bytes
    of the object from the pointer on; a read outside is UB. *)
From Verif Require Import Base.Lib Base.Mem.
Local Open Scope N_scope.

(** M_ct_tolower, base/data/m_str.c:62-84 *)
Definition tolower_table : list N :=
  [0;1;2;3;4;5;6;7;8;9;10;11;12;13;14;15;
   16;17;18;19;20;21;22;23;24;25;26;27;28;29;30;31;
   32;33;34;35;36;37;38;39;40;41;42;43;44;45;46;47;
   48;49;50;51;52;53;54;55;56;57;58;59;60;61;62;63;
   64;97;98;99;100;101;102;103;104;105;106;107;108;109;110;111;
   112;113;114;115;116;117;118;119;120;121;122;91;92;93;94;95;
   96;97;98;99;100;101;102;103;104;105;106;107;108;109;110;111;
   112;113;114;115;116;117;118;119;120;121;122;123;124;125;126;127;
   128;129;130;131;132;133;134;135;136;137;138;139;140;141;142;143;
   144;145;146;147;148;149;150;151;152;153;154;155;156;157;158;159;
   160;161;162;163;164;165;166;167;168;169;170;171;172;173;174;175;
   176;177;178;179;180;181;182;183;184;185;186;187;188;189;190;191;
   192;193;194;195;196;197;198;199;200;201;202;203;204;205;206;207;
   208;209;210;211;212;213;214;215;216;217;218;219;220;221;222;223;
   224;225;226;227;228;229;230;231;232;233;234;235;236;237;238;239;
   240;241;242;243;244;245;246;247;248;249;250;251;252;253;254;255].
Definition ct_tolower (c : N) : N := nth (N.to_nat c) tolower_table 0.

(** base/data/m_str.c:103-111: one loop for both cases.  The suffixes of the
    strings at index [i] are carried instead of the strings.  The result holds
    the accumulated differences, the final index and the suffixes there. *)
Fixpoint eq_loop (ci : bool) (max : N) (s1 s2 : list N) (i result : N) : res (N * N * list N * list N) :=
  if negb (i <? max) then Ok (result, i, s1, s2)
  else
  match s1, s2 with
  | [], _ => UB
  | c1 :: s1', _ =>
    if c1 =? 0 then Ok (result, i, s1, s2)
    else
    match s2 with
    | [] => UB
    | c2 :: s2' =>
      if c2 =? 0 then Ok (result, i, s1, s2)
      else
      let d := if ci then N.lxor (ct_tolower c1) (ct_tolower c2) else N.lxor c1 c2 in
      eq_loop ci max s1' s2' (i + 1) (N.lor result d)
    end
  end.

Definition str_of (s : option (list N)) : list N := match s with Some m => m | None => [0] end.

(** M_str_eq_max_int, base/data/m_str.c:86-127.  The second component is the
    number of turns of the loop, which the comments of the function and of
    include/mstdlib/base/m_str.h:518-537 speak about; the code does not return
    it. *)
Definition eq_max_int (s1 s2 : option (list N)) (max : N) (ci : bool) : res (bool * N) :=
  do '(result, i, t1, t2) <- eq_loop ci max (str_of s1) (str_of s2) 0 0;
  if negb (result =? 0) then Ok (false, i)
  else
  if i =? max then Ok (true, i)
  else
  do a <- rd t1 0;
  do b <- rd t2 0;
  if ((a =? 0) && negb (b =? 0)) || (negb (a =? 0) && (b =? 0)) then Ok (false, i)
  else Ok (true, i).

Definition size_max : N := 2 ^ 64 - 1.

(** base/data/m_str.c:736-757 *)
Definition str_eq_max s1 s2 max := eq_max_int s1 s2 max false.
Definition str_eq s1 s2 := str_eq_max s1 s2 size_max.
Definition str_caseeq_max s1 s2 max := eq_max_int s1 s2 max true.
Definition str_caseeq s1 s2 := str_caseeq_max s1 s2 size_max.

(** M_str_len: base/data/m_str.c:364-369 *)
Definition len_of (s : option (list N)) : res nat := match s with None => Ok 0%nat | Some m => strlen m end.

(** base/data/m_str.c:129-146, 759-767 *)
Definition eq_end_int (s1 s2 : option (list N)) (ci : bool) : res (bool * N) :=
  match s1, s2 with
  | Some m1, Some _ =>
    do l1 <- len_of s1;
    do l2 <- len_of s2;
    if (l1 <? l2)%nat then Ok (false, 0)
    else eq_max_int (Some (skipn (l1 - l2) m1)) s2 (N.of_nat l2) ci
  | _, _ => Ok (false, 0)
  end.

(** base/data/m_str.c:769-777 *)
Definition eq_start_int (s1 s2 : option (list N)) (ci : bool) : res (bool * N) :=
  do l2 <- len_of s2;
  eq_max_int s1 s2 (N.of_nat l2) ci.

(** M_str_casestr, base/data/m_str.c:686-704: the offset of the result in
    [haystack], [None] for NULL.  M_str_casestr_pos (706-716) returns -1 for
    [None] and the offset otherwise. *)
Fixpoint casestr_loop (h needle : list N) (i n nlen : nat) : res (option nat) :=
  match n with
  | O => Ok None
  | S n' =>
    if (n <? nlen)%nat then Ok None
    else
    do '(b, _) <- str_caseeq_max (Some (skipn i h)) (Some needle) (N.of_nat nlen);
    if b then Ok (Some i) else casestr_loop h needle (S i) n' nlen
  end.
Definition casestr (haystack needle : option (list N)) : res (option nat) :=
  match haystack, needle with
  | Some h, Some nd =>
    do len <- strlen h;
    do nlen <- strlen nd;
    casestr_loop h nd 0 len nlen
  | _, _ => Ok None
  end.
