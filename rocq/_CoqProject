-Q theories Verif
theories/Base.v
theories/BithreadModel.v
theories/BithreadSpec.v
theories/BithreadProofs.v
theories/BithreadProps.v
theories/CircularModel.v
theories/CircularSpec.v
theories/CircularProofs.v
theories/CircularProps.v
theories/QueueCacheModel.v
theories/QueueCacheSpec.v
theories/QueueCacheProofs.v
theories/QueueCacheProps.v
theories/SortedMap.v
theories/TxEnumModel.v
theories/TxEnumProofs.v
theories/CowModel.v
theories/CowProofs.v
theories/TxDictModel.v
theories/TxDictSpec.v
theories/TxDictProofs.v
theories/TxDictProps.v
theories/TxSetModel.v
theories/TxSetSpec.v
theories/TxSetProofs.v
theories/TxSetProps.v
theories/TxListModel.v
theories/TxListSpec.v
theories/TxListProofs.v
theories/TxListProps.v
theories/Conc.v
theories/TxLockModel.v
theories/TxLockSpec.v
theories/TxLockProofs.v
theories/TxLockProps.v
theories/CancelTokenModel.v
theories/CancelTokenSpec.v
theories/CancelTokenProofs.v
theories/CancelTokenProps.v
theories/TaskLifeModel.v
theories/TaskLifeSpec.v
theories/TaskLifeProofs.v
theories/TaskLifeProps.v
theories/BarrierModel.v
theories/BarrierSpec.v
theories/BarrierProofs.v
theories/BarrierProps.v
theories/TimerModel.v
theories/TimerSpec.v
theories/TimerProofs.v
theories/TimerProps.v
theories/ArithModel.v
theories/ArithSpec.v
theories/ArithProofs.v
theories/ArithProps.v
theories/BitBufModel.v
theories/BitBufSpec.v
theories/BitBufProofs.v
theories/BitBufProps.v
theories/BigNumModel.v
theories/BigNumSpec.v
theories/BigNumProofs.v
theories/BigNumProofs2.v
theories/BigNumProofs3.v
theories/BigNumProps.v
theories/BitsModel.v
theories/BitsSpec.v
theories/BitsProofs.v
theories/BitsProofs2.v
theories/BitsProps.v
theories/PacketModel.v
theories/PacketSpec.v
theories/PacketProofs.v
theories/PacketProps.v
theories/SharedPtrModel.v
theories/SharedPtrProofs.v
theories/SharedPtrProps.v
theories/FutureModel.v
theories/FutureProofs.v
theories/FutureProps.v
theories/SignalSpec.v
theories/SignalModel.v
theories/SignalProofs.v
theories/SignalProofs2.v
theories/SignalProofs3.v
theories/SignalProps.v
theories/FlatSpec.v
theories/FlatModel.v
theories/FlatProofs.v
theories/FlatProps.v
theories/OrderedSpec.v
theories/OrderedModel.v
theories/OrderedProofs.v
theories/OrderedProps.v
theories/AhoSpec.v
theories/AhoModel.v
theories/AhoProofs.v
theories/AhoProofs2.v
theories/AhoProps.v
theories/PagedModel.v
theories/PagedSpec.v
theories/PagedProofs.v
theories/PagedProofs2.v
theories/PagedProps.v
theories/InplaceModel.v
theories/InplaceProps.v
theories/IntrusiveModel.v
theories/IntrusiveProps.v
theories/ExecutorModel.v
theories/ExecutorProps.v
theories/ThreadPoolModel.v
theories/ThreadPoolSpec.v
theories/ThreadPoolProofs.v
theories/ThreadPoolProps.v
theories/DataBufferModel.v
theories/DataBufferSpec.v
theories/DataBufferProofs.v
theories/DataBufferProps.v
theories/AsyncStreamModel.v
theories/AsyncStreamSpec.v
theories/AsyncStreamProofs.v
theories/AsyncStreamInv.v
theories/AsyncStreamStep.v
theories/AsyncStreamProps.v
theories/BufStreamModel.v
theories/BufStreamSpec.v
theories/BufStreamProofs.v
theories/BufStreamProps.v
theories/CalendarModel.v
theories/CalendarSpec.v
theories/CalendarProofs.v
theories/CalendarProofs2.v
theories/CalendarProps.v
theories/TimeConvProofs.v
theories/TimeConvProps.v
theories/AdaptersModel.v
theories/AdaptersSpec.v
theories/AdaptersProofs.v
theories/AdaptersProps.v
theories/PipesModel.v
theories/PipesSpec.v
theories/PipesProofs.v
theories/PipesProps.v
theories/MemStreamModel.v
theories/MemStreamSpec.v
theories/MemStreamProofs.v
theories/MemStreamProps.v
theories/ReadHelpModel.v
theories/ReadHelpSpec.v
theories/ReadHelpProofs.v
theories/ReadHelpProps.v
theories/ByteViewModel.v
theories/ByteViewSpec.v
theories/ByteViewProofs.v
theories/ByteViewProps.v
theories/Utf8Model.v
theories/Utf8Spec.v
theories/Utf8Proofs.v
theories/Utf8Props.v
theories/HexModel.v
theories/HexSpec.v
theories/HexProofs.v
theories/HexProps.v
theories/CollModel.v
theories/CollSpec.v
theories/CollProofs.v
theories/CollProps.v
theories/ObsModel.v
theories/ObsSpec.v
theories/ObsProofs.v
theories/ObsProofs2.v
theories/ObsProofs3.v
theories/ObsProps.v
theories/ITextModel.v
theories/ITextSpec.v
theories/ITextProofs.v
theories/ITextProofs2.v
theories/ITextProps.v
theories/SvModel.v
theories/SvSpec.v
theories/SvProofs.v
theories/SvProps.v
theories/SuModel.v
theories/SuSpec.v
theories/SuProofs.v
theories/SuProofs2.v
theories/SuProps.v
theories/MathModel.v
theories/MathSpec.v
theories/MathProofs.v
theories/MathProofs2.v
theories/MathProofs3.v
theories/MathProps.v
theories/RgModel.v
theories/RgSpec.v
theories/RgProofs.v
theories/RgProofs2.v
theories/RgProofs3.v
theories/RgProofs4.v
theories/RgProps.v
theories/PpmModel.v
theories/PpmSpec.v
theories/PpmProofs.v
theories/PpmProofs2.v
theories/PpmProofs3.v
theories/PpmProofs4.v
theories/PpmProps.v
theories/SerModel.v
theories/SerSpec.v
theories/SerProofs.v
theories/SerProofs2.v
theories/SerProofs3.v
theories/SerProps.v
theories/LifeModel.v
theories/LifeSpec.v
theories/LifeProofs.v
theories/LifeProofs2.v
theories/LifeProofs3.v
theories/LifeProps.v
theories/DecModel.v
theories/DecSpec.v
theories/DecProofs.v
theories/DecProofs2.v
theories/FixModel.v
theories/FixSpec.v
theories/FixProofs.v
theories/FixProofs2.v
theories/DecProps.v
theories/FormModel.v
theories/FormSpec.v
theories/FormProofs.v
theories/FormProofs2.v
theories/FormProofs3.v
theories/FormProps.v
theories/CompModel.v
theories/CompSpec.v
theories/CompProofs.v
theories/CompProps.v
theories/CvWaitModel.v
theories/CvWaitSpec.v
theories/CvWaitProofs.v
theories/CvWaitProofs2.v
theories/CvWaitProofs3.v
theories/CvWaitProofs4.v
theories/CvWaitProofs5.v
theories/CvWaitProps.v
theories/RefCntModel.v
theories/RefCntSpec.v
theories/RefCntProofs.v
theories/RefCntProps.v
theories/SingletonModel.v
theories/SingletonSpec.v
theories/SingletonProofs.v
theories/SingletonProofs2.v
theories/SingletonProofs3.v
theories/SingletonProps.v
theories/CodecModel.v
theories/CodecSpec.v
theories/CodecProofs.v
theories/CodecProofs2.v
theories/CodecProps.v
theories/EnumModel.v
theories/EnumSpec.v
theories/EnumProofs.v
theories/EnumProps.v
theories/CountModel.v
theories/CountSpec.v
theories/CountProofs.v
theories/CountProps.v
theories/HandleModel.v
theories/HandleSpec.v
theories/HandleProofs.v
theories/HandleProps.v
theories/PoolModel.v
theories/PoolSpec.v
theories/PoolProofs.v
theories/PoolProps.v
theories/ObsValueModel.v
theories/ObsValueSpec.v
theories/ObsValueProofs.v
theories/ObsValueProps.v
theories/ViewModel.v
theories/ViewSpec.v
theories/ViewProofs.v
theories/ViewProps.v
theories/JoinModel.v
theories/JoinSpec.v
theories/JoinProofs.v
theories/JoinProps.v
theories/EntryModel.v
theories/EntrySpec.v
theories/EntryProofs.v
theories/EntryProps.v
theories/ObtainModel.v
theories/ObtainSpec.v
theories/ObtainProofs.v
theories/ObtainProps.v
theories/AsyncProfModel.v
theories/AsyncProfSpec.v
theories/AsyncProfProofs.v
theories/AsyncProfProps.v
theories/ThreadModel.v
theories/ThreadSpec.v
theories/ThreadProofs.v
theories/ThreadProps.v
theories/MapperModel.v
theories/MapperSpec.v
theories/MapperProofs.v
theories/MapperProps.v
theories/NumbersModel.v
theories/NumbersSpec.v
theories/NumbersProofs.v
theories/NumbersProps.v
theories/EnumStrModel.v
theories/EnumStrSpec.v
theories/EnumStrProofs.v
theories/EnumStrProps.v
theories/LogModel.v
theories/LogSpec.v
theories/LogProofs.v
theories/LogProps.v
theories/ScopesModel.v
theories/ScopesSpec.v
theories/ScopesProofs.v
theories/ScopesProps.v
theories/CmdModel.v
theories/CmdSpec.v
theories/CmdProofs.v
theories/CmdProps.v
theories/LangModel.v
theories/LangSpec.v
theories/LangProofs.v
theories/LangProps.v
theories/PipeModel.v
theories/PipeSpec.v
theories/PipeProofs.v
theories/PipeProps.v
