-Q theories Verif
theories/Util.v
theories/RA.v
theories/SpscModel.v
theories/SpscSpec.v
theories/SpscProofs.v
theories/SpscProofs2.v
theories/SpscProofs3.v
theories/SpscProps.v
theories/PoolModel.v
theories/PoolSpec.v
theories/PoolProofs.v
theories/PoolProps.v
theories/Slots.v
theories/Cmd.v
theories/QueueModel.v
theories/QueueSpec.v
theories/QueueProofs.v
theories/QueueProps.v
theories/CircSpec.v
theories/CircModel.v
theories/CircProofs.v
theories/CircProps.v
theories/TimerModel.v
theories/TimerSpec.v
theories/TimerProofs.v
theories/TimerProofs2.v
theories/TimerProofs3.v
theories/TimerProofs4.v
theories/TimerProps.v
theories/Base64Model.v
theories/Base64Spec.v
theories/Base64Proofs.v
theories/Base64Proofs2.v
theories/Base64Props.v
theories/BinaryModel.v
theories/BitLib.v
theories/BinaryProofs.v
theories/BinarySpec.v
theories/BinaryProofs2.v
theories/BinaryProofs3.v
theories/BinaryProofs4.v
theories/BinaryProps.v
theories/CrcModel.v
theories/CrcSpec.v
theories/CrcProofs.v
theories/CrcProps.v
theories/BitStreamModel.v
theories/BitStreamSpec.v
theories/BitStreamProofs.v
theories/BitStreamProofs2.v
theories/BitStreamProps.v
theories/ByteStreamModel.v
theories/ByteStreamSpec.v
theories/ByteStreamProofs.v
theories/ByteStreamProps.v
theories/SortModel.v
theories/SortSpec.v
theories/HeapProofs.v
theories/SortProofs.v
theories/SortProofs2.v
theories/SortProps.v
theories/PrioModel.v
theories/PrioProps.v
theories/PrioSpec.v
theories/AlgoModel.v
theories/AlgoSpec.v
theories/AlgoProofs.v
theories/AlgoProps.v
theories/FlatModel.v
theories/FlatSpec.v
theories/FlatProofs.v
theories/FlatProps.v
theories/FsmModel.v
theories/FsmSpec.v
theories/FsmProps.v
theories/HfsmModel.v
theories/HfsmSpec.v
theories/HfsmProofs.v
theories/HfsmProps.v
theories/ObsModel.v
theories/ObsProps.v
theories/ObsSpec.v
theories/MsgModel.v
theories/MsgSpec.v
theories/MsgProps.v
theories/SharedModel.v
theories/SharedSpec.v
theories/SharedProps.v
theories/ListSpec.v
theories/Dll.v
theories/ListModel.v
theories/ListProofs.v
theories/MergeSort.v
theories/ListProps.v
theories/VecModel.v
theories/VecSpec.v
theories/VecProofs.v
theories/VecProps.v
theories/AvlModel.v
theories/AvlTree.v
theories/AvlRot.v
theories/AvlIns.v
theories/AvlDel.v
theories/AvlRem.v
theories/AvlFind.v
theories/MapModel.v
theories/MapSpec.v
theories/MapProofs.v
theories/MapProps.v
theories/UmModel.v
theories/UmSpec.v
theories/UmProofs.v
theories/UmOps.v
theories/UmProps.v
theories/BipModel.v
theories/BipSpec.v
theories/BipProofs.v
theories/BipSteps.v
theories/BipSteps2.v
theories/BipSteps3.v
theories/BipSys.v
theories/BipBlocks.v
theories/BipProps.v
theories/StrModel.v
theories/StrSpec.v
theories/StrProofs.v
theories/StrOps.v
theories/StrProps.v
theories/DequeModel.v
theories/DequeSpec.v
theories/DequeProofs.v
theories/DequeOps.v
theories/DequeOps2.v
theories/DequeProps.v
theories/BitsetModel.v
theories/BitsetSpec.v
theories/BitsetProofs.v
theories/BitsetOps.v
theories/BitsetOps2.v
theories/BitsetOps3.v
theories/BitsetOps4.v
theories/BitsetOps5.v
theories/BitsetAbs.v
theories/BitsetProps.v
theories/CyclicModel.v
theories/CyclicProps.v
theories/CyclicSpec.v
theories/DebounceModel.v
theories/DebounceProps.v
theories/DebounceSpec.v
theories/BloomModel.v
theories/BloomProps.v
theories/BloomSpec.v
theories/SchedModel.v
theories/SchedProps.v
theories/SchedSpec.v
theories/ConvModel.v
theories/ConvProofs.v
theories/ConvSpec.v
theories/ConvProps.v
theories/LockedModel.v
theories/LockedSpec.v
theories/LockedProofs.v
theories/LockedProps.v
theories/IntrModel.v
theories/IntrSpec.v
theories/IntrProofs.v
theories/IntrProofs2.v
theories/IntrProofs3.v
theories/IntrProofs4.v
theories/IntrProofs5.v
theories/IntrProps.v
theories/MathModel.v
theories/MathProofs.v
theories/MathSpec.v
theories/MathProps.v
theories/RoundModel.v
theories/RoundSpec.v
theories/RoundProofs.v
theories/RoundProps.v
theories/HashModel.v
theories/OptSpec.v
theories/HashSpec.v
theories/HashProofs.v
theories/HashProofs2.v
theories/HashProofs3.v
theories/HashProofs4.v
theories/HashProps.v
theories/OptModel.v
theories/OptProofs.v
theories/OptProps.v
theories/VntModel.v
theories/VntSpec.v
theories/VntProofs.v
theories/ExpProofs.v
theories/VntProps.v
theories/ViewModel.v
theories/ViewProofs.v
theories/ViewSpec.v
theories/ViewProps.v
theories/MspanModel.v
theories/MspanProofs.v
theories/MspanProps.v
theories/StrFindModel.v
theories/StrFindProofs.v
theories/StrFindProps.v
theories/SchartModel.v
theories/SchartSpec.v
theories/SchartProofs.v
theories/SchartProps.v
theories/FwdModel.v
theories/FwdProofs.v
theories/FwdSpec.v
theories/FwdProps.v
theories/UmmModel.v
theories/UmmSpec.v
theories/UmmProofs.v
theories/UmmProps.v
theories/MmModel.v
theories/MmTree.v
theories/MmIns.v
theories/MmDel.v
theories/MmRem.v
theories/MmRem2.v
theories/MmRem3.v
theories/MmFind.v
theories/MmProofs.v
theories/MmSpec.v
theories/MmProps.v
theories/MidModel.v
theories/MidProps.v
theories/HistModel.v
theories/HistSpec.v
theories/HistProofs.v
theories/HistProps.v
theories/MrangeModel.v
theories/MrangeSpec.v
theories/MrangeProofs.v
theories/MrangeProps.v
theories/SutilModel.v
theories/SutilSpec.v
theories/SutilProofs.v
theories/SutilProps.v
theories/TisrModel.v
theories/TisrSpec.v
theories/TisrProofs.v
theories/TisrProofs2.v
theories/TisrProofs3.v
theories/TisrProofs4.v
theories/TisrProofs5.v
theories/TisrProofs6.v
theories/TisrProps.v
theories/RndModel.v
theories/RndProofs.v
theories/RndFermat.v
theories/RndPrime.v
theories/RndProofs2.v
theories/RndXor.v
theories/RndProps.v
theories/BresModel.v
theories/BresProofs.v
theories/BresSpec.v
theories/BresProps.v
theories/BufdModel.v
theories/BufdProofs.v
theories/BufdSpec.v
theories/BufdProps.v
theories/CitrModel.v
theories/CitrProps.v
theories/RegModel.v
theories/RegProofs.v
theories/RegSpec.v
theories/RegProps.v
theories/ArrModel.v
theories/ArrProofs.v
theories/ArrProps.v
theories/StackModel.v
theories/StackProofs.v
theories/StackSpec.v
theories/StackProps.v
theories/UnalModel.v
theories/UnalProofs.v
theories/UnalProps.v
theories/UnalSpec.v
theories/FlagsModel.v
theories/FlagsProps.v
theories/MbaModel.v
theories/MbaSpec.v
theories/MbaProofs.v
theories/MbaProps.v
theories/DsvModel.v
theories/DsvSpec.v
theories/DsvProps.v
theories/PmaModel.v
theories/PmaProps.v
theories/PmaSpec.v
