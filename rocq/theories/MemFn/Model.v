(** Model of the memory query and checksum functions of base/mem/m_mem.c and
    of the byte-order functions of base/mem/m_endian.c.  NULL pointers are not
    modelled except where stated; regions are lists of bytes. *)
From Verif Require Import Base.Lib Base.Mem.
Local Open Scope N_scope.

(** M_mem_eq: m_mem.c:324-339 (regions at different addresses; at the same
    address line 329 answers true) *)
Fixpoint mem_eq_loop (m1 m2 : list N) (i k : nat) (result : N) : res bool :=
  match k with
  | O => Ok (result =? 0)
  | S k' =>
    do a <- rd m1 i; do b <- rd m2 i;
    mem_eq_loop m1 m2 (S i) k' (N.lor result (N.lxor a b))
  end.
Definition mem_eq (m1 m2 : list N) (size : nat) : res bool := mem_eq_loop m1 m2 0 size 0.

(** memchr of the C library: the first of the [n] bytes from [i] on equal to [c]. *)
Fixpoint memchr (m : list N) (i : nat) (c : N) (n : nat) : res (option nat) :=
  match n with
  | O => Ok None
  | S n' => do x <- rd m i; if x =? c then Ok (Some i) else memchr m (S i) c n'
  end.

(** M_mem_mem: lines 368-409; the offset found.  [hlen] bytes of [h], [nlen] of [n]. *)
Fixpoint mem_mem_loop (fuel : nat) (h : list N) (hlen : nat) (n : list N) (nlen i : nat) : res (option nat) :=
  match fuel with
  | O => Fuel
  | S f =>
    if (hlen - nlen <? i)%nat then Ok None
    else
    do c <- rd n 0;
    do pos <- memchr h i c (hlen - i);
    match pos with
    | None => Ok None
    | Some i =>
      if (hlen - nlen <? i)%nat then Ok None
      else
      do e <- mem_eq (skipn i h) n nlen;
      if e : bool then Ok (Some i) else mem_mem_loop f h hlen n nlen (S i)
    end
  end.
Definition mem_mem (h : list N) (hlen : nat) (n : list N) (nlen : nat) : res (option nat) :=
  if (hlen =? 0)%nat || (hlen <? nlen)%nat then Ok None
  else if (nlen =? 0)%nat then Ok (Some O)
  else mem_mem_loop (S hlen) h hlen n nlen 0.

(** M_mem_rmem: lines 411-433 *)
Fixpoint rmem_loop (h n : list N) (nlen i : nat) : res (option nat) :=
  match i with
  | O => Ok None
  | S i' => do e <- mem_eq (skipn i' h) n nlen; if e : bool then Ok (Some i') else rmem_loop h n nlen i'
  end.
Definition mem_rmem (h : list N) (hlen : nat) (n : list N) (nlen : nat) : res (option nat) :=
  if (hlen =? 0)%nat then Ok None
  else if (nlen =? 0)%nat then Ok (Some O)
  else if (hlen <? nlen)%nat then Ok None
  else rmem_loop h n nlen (hlen - nlen + 1).

(** M_mem_count: lines 451-467 *)
Fixpoint mem_count (s : list N) (i k : nat) (b : N) (cnt : nat) : res nat :=
  match k with
  | O => Ok cnt
  | S k' => do x <- rd s i; mem_count s (S i) k' b (if x =? b then S cnt else cnt)
  end.

(** M_mem_cmpsort: lines 341-355 for distinct regions; memcmp compares the bytes *)
Fixpoint memcmp (a b : list N) : Z :=
  match a, b with
  | x :: a', y :: b' => if x =? y then memcmp a' b' else if x <? y then (-1)%Z else 1%Z
  | _, _ => 0%Z
  end.
Definition mem_cmpsort (m1 m2 : list N) : Z :=
  if (length m1 =? 0)%nat && (length m2 =? 0)%nat then 0%Z
  else if (length m1 <? length m2)%nat then (-1)%Z
  else if (length m2 <? length m1)%nat then 1%Z
  else memcmp m1 m2.

(** M_mem_calc_lrc: lines 469-484; [sc[i]] is a signed char *)
Definition schar (b : N) : Z := if b <? 128 then Z.of_N b else (Z.of_N b - 256)%Z.
Definition mem_lrc (s : list N) : N := Z.to_N (fold_left (fun l b => Z.lxor l (schar b)) s 0%Z mod 256)%Z.

(** M_mem_swap_bytes: lines 666-681 *)
Definition swap_bytes (s : list N) (i j : nat) : res (bool * list N) :=
  if (length s =? 0)%nat || (length s <=? i)%nat || (length s <=? j)%nat then Ok (false, s)
  else if (i =? j)%nat then Ok (true, s)
  else
  do b <- rd s i;
  do c <- rd s j;
  do s <- wr s i c;
  do s <- wr s j b;
  Ok (true, s).

(** M_mem_calc_crc8_ccitt: lines 486-542 *)
Definition crc8_table : list N := [
   0; 7; 14; 9; 28; 27; 18; 21; 56; 63; 54; 49; 36; 35; 42; 45;
   112; 119; 126; 121; 108; 107; 98; 101; 72; 79; 70; 65; 84; 83; 90; 93;
   224; 231; 238; 233; 252; 251; 242; 245; 216; 223; 214; 209; 196; 195; 202; 205;
   144; 151; 158; 153; 140; 139; 130; 133; 168; 175; 166; 161; 180; 179; 186; 189;
   199; 192; 201; 206; 219; 220; 213; 210; 255; 248; 241; 246; 227; 228; 237; 234;
   183; 176; 185; 190; 171; 172; 165; 162; 143; 136; 129; 134; 147; 148; 157; 154;
   39; 32; 41; 46; 59; 60; 53; 50; 31; 24; 17; 22; 3; 4; 13; 10;
   87; 80; 89; 94; 75; 76; 69; 66; 111; 104; 97; 102; 115; 116; 125; 122;
   137; 142; 135; 128; 149; 146; 155; 156; 177; 182; 191; 184; 173; 170; 163; 164;
   249; 254; 247; 240; 229; 226; 235; 236; 193; 198; 207; 200; 221; 218; 211; 212;
   105; 110; 103; 96; 117; 114; 123; 124; 81; 86; 95; 88; 77; 74; 67; 68;
   25; 30; 23; 16; 5; 2; 11; 12; 33; 38; 47; 40; 61; 58; 51; 52;
   78; 73; 64; 71; 82; 85; 92; 91; 118; 113; 120; 127; 106; 109; 100; 99;
   62; 57; 48; 55; 34; 37; 44; 43; 6; 1; 8; 15; 26; 29; 20; 19;
   174; 169; 160; 167; 178; 181; 188; 187; 150; 145; 152; 159; 138; 141; 132; 131;
   222; 217; 208; 215; 194; 197; 204; 203; 230; 225; 232; 239; 250; 253; 244; 243].
Fixpoint crc8_loop (s : list N) (val : N) : res N :=
  match s with
  | [] => Ok val
  | b :: s' => do v <- rd crc8_table (N.to_nat (N.lxor val b)); crc8_loop s' v
  end.
Definition crc8 (s : list N) : res N := match s with [] => Ok 0 | _ => crc8_loop s 0 end.

(** M_mem_calc_crc16_ccitt: lines 544-603 *)
Definition crc16_table : list N := [
   0; 4129; 8258; 12387; 16516; 20645; 24774; 28903; 33032; 37161; 41290; 45419; 49548; 53677; 57806; 61935;
   4657; 528; 12915; 8786; 21173; 17044; 29431; 25302; 37689; 33560; 45947; 41818; 54205; 50076; 62463; 58334;
   9314; 13379; 1056; 5121; 25830; 29895; 17572; 21637; 42346; 46411; 34088; 38153; 58862; 62927; 50604; 54669;
   13907; 9842; 5649; 1584; 30423; 26358; 22165; 18100; 46939; 42874; 38681; 34616; 63455; 59390; 55197; 51132;
   18628; 22757; 26758; 30887; 2112; 6241; 10242; 14371; 51660; 55789; 59790; 63919; 35144; 39273; 43274; 47403;
   23285; 19156; 31415; 27286; 6769; 2640; 14899; 10770; 56317; 52188; 64447; 60318; 39801; 35672; 47931; 43802;
   27814; 31879; 19684; 23749; 11298; 15363; 3168; 7233; 60846; 64911; 52716; 56781; 44330; 48395; 36200; 40265;
   32407; 28342; 24277; 20212; 15891; 11826; 7761; 3696; 65439; 61374; 57309; 53244; 48923; 44858; 40793; 36728;
   37256; 33193; 45514; 41451; 53516; 49453; 61774; 57711; 4224; 161; 12482; 8419; 20484; 16421; 28742; 24679;
   33721; 37784; 41979; 46042; 49981; 54044; 58239; 62302; 689; 4752; 8947; 13010; 16949; 21012; 25207; 29270;
   46570; 42443; 38312; 34185; 62830; 58703; 54572; 50445; 13538; 9411; 5280; 1153; 29798; 25671; 21540; 17413;
   42971; 47098; 34713; 38840; 59231; 63358; 50973; 55100; 9939; 14066; 1681; 5808; 26199; 30326; 17941; 22068;
   55628; 51565; 63758; 59695; 39368; 35305; 47498; 43435; 22596; 18533; 30726; 26663; 6336; 2273; 14466; 10403;
   52093; 56156; 60223; 64286; 35833; 39896; 43963; 48026; 19061; 23124; 27191; 31254; 2801; 6864; 10931; 14994;
   64814; 60687; 56684; 52557; 48554; 44427; 40424; 36297; 31782; 27655; 23652; 19525; 15522; 11395; 7392; 3265;
   61215; 65342; 53085; 57212; 44955; 49082; 36825; 40952; 28183; 32310; 20053; 24180; 11923; 16050; 3793; 7920].
Fixpoint crc16_loop (s : list N) (val : N) : res N :=
  match s with
  | [] => Ok val
  | b :: s' =>
    do v <- rd crc16_table (N.to_nat (N.lxor (N.shiftr val 8) b));
    crc16_loop s' (N.lxor v (N.shiftl val 8 mod 2 ^ 16))
  end.
Definition crc16 (s : list N) : res N := match s with [] => Ok 0 | _ => crc16_loop s 65535 end.

(** M_mem_calc_crc32: lines 605-664 *)
Definition crc32_table : list N := [
   0; 1996959894; 3993919788; 2567524794; 124634137; 1886057615; 3915621685; 2657392035;
   249268274; 2044508324; 3772115230; 2547177864; 162941995; 2125561021; 3887607047; 2428444049;
   498536548; 1789927666; 4089016648; 2227061214; 450548861; 1843258603; 4107580753; 2211677639;
   325883990; 1684777152; 4251122042; 2321926636; 335633487; 1661365465; 4195302755; 2366115317;
   997073096; 1281953886; 3579855332; 2724688242; 1006888145; 1258607687; 3524101629; 2768942443;
   901097722; 1119000684; 3686517206; 2898065728; 853044451; 1172266101; 3705015759; 2882616665;
   651767980; 1373503546; 3369554304; 3218104598; 565507253; 1454621731; 3485111705; 3099436303;
   671266974; 1594198024; 3322730930; 2970347812; 795835527; 1483230225; 3244367275; 3060149565;
   1994146192; 31158534; 2563907772; 4023717930; 1907459465; 112637215; 2680153253; 3904427059;
   2013776290; 251722036; 2517215374; 3775830040; 2137656763; 141376813; 2439277719; 3865271297;
   1802195444; 476864866; 2238001368; 4066508878; 1812370925; 453092731; 2181625025; 4111451223;
   1706088902; 314042704; 2344532202; 4240017532; 1658658271; 366619977; 2362670323; 4224994405;
   1303535960; 984961486; 2747007092; 3569037538; 1256170817; 1037604311; 2765210733; 3554079995;
   1131014506; 879679996; 2909243462; 3663771856; 1141124467; 855842277; 2852801631; 3708648649;
   1342533948; 654459306; 3188396048; 3373015174; 1466479909; 544179635; 3110523913; 3462522015;
   1591671054; 702138776; 2966460450; 3352799412; 1504918807; 783551873; 3082640443; 3233442989;
   3988292384; 2596254646; 62317068; 1957810842; 3939845945; 2647816111; 81470997; 1943803523;
   3814918930; 2489596804; 225274430; 2053790376; 3826175755; 2466906013; 167816743; 2097651377;
   4027552580; 2265490386; 503444072; 1762050814; 4150417245; 2154129355; 426522225; 1852507879;
   4275313526; 2312317920; 282753626; 1742555852; 4189708143; 2394877945; 397917763; 1622183637;
   3604390888; 2714866558; 953729732; 1340076626; 3518719985; 2797360999; 1068828381; 1219638859;
   3624741850; 2936675148; 906185462; 1090812512; 3747672003; 2825379669; 829329135; 1181335161;
   3412177804; 3160834842; 628085408; 1382605366; 3423369109; 3138078467; 570562233; 1426400815;
   3317316542; 2998733608; 733239954; 1555261956; 3268935591; 3050360625; 752459403; 1541320221;
   2607071920; 3965973030; 1969922972; 40735498; 2617837225; 3943577151; 1913087877; 83908371;
   2512341634; 3803740692; 2075208622; 213261112; 2463272603; 3855990285; 2094854071; 198958881;
   2262029012; 4057260610; 1759359992; 534414190; 2176718541; 4139329115; 1873836001; 414664567;
   2282248934; 4279200368; 1711684554; 285281116; 2405801727; 4167216745; 1634467795; 376229701;
   2685067896; 3608007406; 1308918612; 956543938; 2808555105; 3495958263; 1231636301; 1047427035;
   2932959818; 3654703836; 1088359270; 936918000; 2847714899; 3736837829; 1202900863; 817233897;
   3183342108; 3401237130; 1404277552; 615818150; 3134207493; 3453421203; 1423857449; 601450431;
   3009837614; 3294710456; 1567103746; 711928724; 3020668471; 3272380065; 1510334235; 755167117].
Fixpoint crc32_loop (s : list N) (val : N) : res N :=
  match s with
  | [] => Ok val
  | b :: s' =>
    do v <- rd crc32_table (N.to_nat (N.land (N.lxor val b) 255));
    crc32_loop s' (N.lxor (N.shiftr val 8) v)
  end.
Definition crc32 (s : list N) : res N :=
  match s with [] => Ok 0 | _ => do v <- crc32_loop s (2 ^ 32 - 1); Ok (2 ^ 32 - 1 - v) end.

(** M_swap16, M_swap32, M_swap64: m_endian.c:53-81; shifts of unsigned values *)
Definition swap16 (n : N) : N :=
  N.lor (N.shiftl (N.land n 0xff) 8 mod 2 ^ 16) (N.shiftr (N.land n 0xff00) 8).
Definition swap32 (n : N) : N :=
  N.lor (N.lor (N.lor (N.shiftl (N.land n 0xff) 24 mod 2 ^ 32)
                      (N.shiftl (N.land n 0xff00) 8 mod 2 ^ 32))
               (N.shiftr (N.land n 0xff0000) 8))
        (N.shiftr (N.land n 0xff000000) 24).
Definition swap64 (n : N) : N :=
  N.lor (N.lor (N.lor (N.lor (N.lor (N.lor (N.lor
    (N.shiftl (N.land n 0xff) 56 mod 2 ^ 64)
    (N.shiftl (N.land n 0xff00) 40 mod 2 ^ 64))
    (N.shiftl (N.land n 0xff0000) 24 mod 2 ^ 64))
    (N.shiftl (N.land n 0xff000000) 8 mod 2 ^ 64))
    (N.shiftr (N.land n 0xff00000000) 8))
    (N.shiftr (N.land n 0xff0000000000) 24))
    (N.shiftr (N.land n 0xff000000000000) 40))
    (N.shiftr (N.land n 0xff00000000000000) 56).

(** M_hton*, M_htol*, M_ntoh*, M_ltoh*: lines 85-103; [big] is M_endianess() *)
Definition hton (swap : N -> N) (big : bool) (n : N) : N := if big then n else swap n.
Definition htol (swap : N -> N) (big : bool) (n : N) : N := if big then swap n else n.
Definition ntoh (swap : N -> N) (big : bool) (n : N) : N := if big then n else swap n.
Definition ltoh (swap : N -> N) (big : bool) (n : N) : N := if big then swap n else n.
