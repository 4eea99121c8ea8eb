-Q theories Verif

theories/Base/Lib.v
theories/Base/Mem.v
theories/Base/Conc.v
theories/Hex/Model.v
theories/Hex/Spec.v
theories/Hex/Proofs.v
theories/Hex/Props.v
theories/Base64/Model.v
theories/Base64/Spec.v
theories/Base64/Proofs.v
theories/Base64/Props.v
theories/Base32/Model.v
theories/Base32/Spec.v
theories/Base32/Proofs.v
theories/Base32/Props.v
theories/Bithacks/Model.v
theories/Bithacks/Spec.v
theories/Bithacks/Proofs.v
theories/Bithacks/Props.v
theories/Rand/Model.v
theories/Rand/Proofs.v
theories/Rand/Props.v
theories/Sort/Model.v
theories/Sort/Spec.v
theories/Sort/Merge.v
theories/Sort/Qsort.v
theories/Sort/Binary.v
theories/Sort/Props.v
theories/Utf8/Model.v
theories/Utf8/Spec.v
theories/Utf8/Proofs.v
theories/Utf8/Text.v
theories/Utf8/Props.v
theories/StrNum/Model.v
theories/StrNum/Spec.v
theories/StrNum/Proofs.v
theories/StrNum/Props.v
theories/Str/Model.v
theories/Str/Spec.v
theories/Str/Proofs.v
theories/Str/Props.v
theories/Glob/Model.v
theories/Glob/Spec.v
theories/Glob/Proofs.v
theories/Glob/Props.v
theories/Buf/Model.v
theories/Buf/Spec.v
theories/Buf/Proofs.v
theories/Buf/Props.v
theories/MemFn/Model.v
theories/MemFn/Spec.v
theories/MemFn/Proofs.v
theories/MemFn/Crc.v
theories/MemFn/Props.v
theories/Parser/Spec.v
theories/Parser/Model.v
theories/Parser/Proofs.v
theories/Parser/Steps.v
theories/Parser/Boundary.v
theories/Parser/Props.v
theories/Bits/Spec.v
theories/Bits/Model.v
theories/Bits/Proofs.v
theories/Bits/PProofs.v
theories/Bits/Props.v
theories/List/Spec.v
theories/List/Model.v
theories/List/Proofs.v
theories/List/Unsorted.v
theories/List/Sorted.v
theories/List/Props.v
theories/Llist/Spec.v
theories/Llist/Model.v
theories/Llist/Proofs.v
theories/Llist/Sorted.v
theories/Llist/Skip.v
theories/Llist/Find.v
theories/Llist/Step.v
theories/Llist/Props.v
theories/Llist/Destroy.v
theories/Hash/Spec.v
theories/Hash/Model.v
theories/Hash/Table.v
theories/Hash/Parts.v
theories/Hash/Proofs.v
theories/Hash/Enum.v
theories/Hash/Dup.v
theories/Hash/Props.v
theories/Hash/Use.v
theories/Queue/Spec.v
theories/Queue/Model.v
theories/Queue/Proofs.v
theories/Queue/Props.v
theories/Cache/Spec.v
theories/Cache/Model.v
theories/Cache/Proofs.v
theories/Cache/Props.v
theories/Decimal/Model.v
theories/Decimal/Spec.v
theories/Decimal/Arith.v
theories/Decimal/Proofs.v
theories/Decimal/Divide.v
theories/Decimal/Text.v
theories/Decimal/Props.v
theories/Time/Model.v
theories/Time/Spec.v
theories/Time/Proofs.v
theories/Time/Props.v
theories/Rwlock/Model.v
theories/Rwlock/Spec.v
theories/Rwlock/Proofs.v
theories/Rwlock/Live.v
theories/Rwlock/Props.v
theories/Threadpool/Model.v
theories/Threadpool/Spec.v
theories/Threadpool/Proofs.v
theories/Threadpool/Live.v
theories/Threadpool/Progress.v
theories/Threadpool/Order.v
theories/Threadpool/Props.v
theories/Pipeline/Model.v
theories/Pipeline/Spec.v
theories/Pipeline/Proofs.v
theories/Pipeline/Order.v
theories/Pipeline/Props.v
theories/Timer/Model.v
theories/Timer/Spec.v
theories/Timer/Proofs.v
theories/Timer/Props.v
theories/StrEq/Model.v
theories/StrEq/Spec.v
theories/StrEq/Proofs.v
theories/StrEq/Props.v
theories/TlsHost/Model.v
theories/TlsHost/Spec.v
theories/TlsHost/Proofs.v
theories/TlsHost/Props.v
theories/Percent/Model.v
theories/Percent/Spec.v
theories/Percent/Proofs.v
theories/Percent/Props.v
theories/Qp/Model.v
theories/Qp/Spec.v
theories/Qp/Proofs.v
theories/Qp/Props.v
theories/Punycode/Model.v
theories/Punycode/Spec.v
theories/Punycode/Proofs.v
theories/Punycode/Props.v
theories/Csv/Model.v
theories/Csv/Spec.v
theories/Csv/Proofs.v
theories/Csv/Scan.v
theories/Csv/Write.v
theories/Csv/Props.v
theories/Json/Model.v
theories/Json/Number.v
theories/Json/Spec.v
theories/Json/Read.v
theories/Json/Tree.v
theories/Json/Write.v
theories/Json/Safe.v
theories/Json/Props.v
theories/XmlEnt/Model.v
theories/XmlEnt/Spec.v
theories/XmlEnt/Proofs.v
theories/XmlEnt/Props.v
theories/FsPath/Model.v
theories/FsPath/Spec.v
theories/FsPath/Proofs.v
theories/FsPath/Props.v
theories/Dict/Model.v
theories/Dict/Spec.v
theories/Dict/Proofs.v
theories/Dict/Props.v
theories/HashCb/Model.v
theories/HashCb/Spec.v
theories/HashCb/Proofs.v
theories/HashCb/Props.v
theories/Fmt/Model.v
theories/Fmt/Spec.v
theories/Fmt/Proofs.v
theories/Fmt/Proofs2.v
theories/Fmt/Proofs3.v
theories/Fmt/Proofs4.v
theories/Fmt/Props.v
theories/TextCodec/Tables.v
theories/TextCodec/Std.v
theories/TextCodec/Model.v
theories/TextCodec/Spec.v
theories/TextCodec/Proofs.v
theories/TextCodec/Names.v
theories/TextCodec/Props.v
theories/XmlDoc/Model.v
theories/XmlDoc/Spec.v
theories/XmlDoc/Proofs.v
theories/XmlDoc/ProofsW.v
theories/XmlDoc/ProofsS.v
theories/XmlDoc/Props.v
theories/FsPerms/Model.v
theories/FsPerms/Spec.v
theories/FsPerms/Proofs.v
theories/FsPerms/Props.v
theories/Spin/Model.v
theories/Spin/Spec.v
theories/Spin/Proofs.v
theories/Spin/Props.v
theories/TzRule/Model.v
theories/TzRule/Spec.v
theories/TzRule/Proofs.v
theories/TzRule/Props.v
theories/StateMachine/Model.v
theories/StateMachine/Spec.v
theories/StateMachine/Proofs.v
theories/StateMachine/Props.v
theories/Table/Model.v
theories/Table/Spec.v
theories/Table/Proofs.v
theories/Table/Merge.v
theories/Table/Props.v
theories/Proxy/Model.v
theories/Proxy/Spec.v
theories/Proxy/Proofs.v
theories/Proxy/Wire.v
theories/Proxy/Props.v
theories/IoBuf/Model.v
theories/IoBuf/Spec.v
theories/IoBuf/Proofs.v
theories/IoBuf/Props.v
theories/SqlTrans/Model.v
theories/SqlTrans/Spec.v
theories/SqlTrans/Proofs.v
theories/SqlTrans/Props.v
theories/AsyncWriter/Model.v
theories/AsyncWriter/Spec.v
theories/AsyncWriter/Proofs.v
theories/AsyncWriter/Props.v
theories/ThreadTls/Model.v
theories/ThreadTls/Spec.v
theories/ThreadTls/Proofs.v
theories/ThreadTls/Proofs2.v
theories/ThreadTls/Proofs3.v
theories/ThreadTls/Props.v
